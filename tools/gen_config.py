"""Copies the literal data of /repo/pymorphy2/lang/*/config.py into Coq files.
Reads the files as text (ast.literal_eval on assignments); does not import the package."""
import ast
def consts(path):
    out = {}
    for n in ast.parse(open(path, encoding='utf8').read()).body:
        if isinstance(n, ast.Assign):
            try:
                out[n.targets[0].id] = (ast.literal_eval(n.value), n.lineno, n.end_lineno)
            except ValueError:
                pass
    return out
def q(s): return '"' + s + '"'
def lst(l, width=8):
    rows = [ '; '.join(q(x) for x in l[i:i+width]) for i in range(0, len(l), width)]
    return 'map u [' + ';\n  '.join(rows) + ']%string'
def gen(lang, files, out):
    c = {}
    for f in files:
        for k, v in consts('/repo/pymorphy2/lang/%s/%s' % (lang, f)).items():
            c[k] = v + (f,)
    o = ['(** Literal data of pymorphy2/lang/%s (generated by tools/gen_config.py). *)' % lang,
         'From Coq Require Import String List NArith ZArith Bool.',
         'From Verif Require Import Py Dawg Analyzer.', 'Import ListNotations.', 'Local Open Scope list_scope.', '']
    def cite(k): return '(** lang/%s/%s:%d-%d %s *)' % (lang, c[k][3], c[k][1], c[k][2], k)
    P = lang.upper()
    o += [cite('PARADIGM_PREFIXES'), 'Definition %s_PARADIGM_PREFIXES : list str :=\n  %s.' % (P, lst(c['PARADIGM_PREFIXES'][0])), '']
    o += [cite('INITIAL_LETTERS'), 'Definition %s_INITIAL_LETTERS : list str := letters_of %s.' % (P, q(c['INITIAL_LETTERS'][0])), '']
    o += [cite('PARTICLES_AFTER_HYPHEN'), 'Definition %s_PARTICLES : list str :=\n  %s.' % (P, lst(c['PARTICLES_AFTER_HYPHEN'][0])), '']
    subs = c['CHAR_SUBSTITUTES'][0]
    o += [cite('CHAR_SUBSTITUTES'), 'Definition %s_SUBSTITUTES : replaces := [%s].' % (P, '; '.join('(chr %s, chr %s)' % (q(a), q(b)) for a, b in subs.items())), '']
    if lang == 'uk':
        tree = ast.parse(open('/repo/pymorphy2/lang/uk/_prefixes.py', encoding='utf8').read())
        aug = [n for n in tree.body if isinstance(n, ast.AugAssign)][0]
        extra = ast.literal_eval(aug.value.generators[0].iter)
        dash = [l.strip() for l in c['_DASH_PREFIXES'][0].split('\n') if l.strip()]
        o += ['(** lang/uk/_prefixes.py:7-340 _DASH_PREFIXES, non-empty stripped lines *)',
              'Definition UK_DASH_PREFIXES : list str :=\n  %s.' % lst(dash), '',
              '(** lang/uk/_prefixes.py:%d-%d: the appended list *)' % (aug.lineno, aug.end_lineno),
              'Definition UK_EXTRA_PREFIXES : list str :=\n  %s.' % lst(extra), '',
              '(** lang/uk/_prefixes.py:343-347 and the filtered append *)',
              'Definition UK_KNOWN1 : list str := map (fun l => l ++ u "-") UK_DASH_PREFIXES.',
              'Definition UK_KNOWN_PREFIXES : list str :=\n  UK_KNOWN1 ++ filter (fun p => negb (smem p UK_KNOWN1)) UK_EXTRA_PREFIXES.', '']
    else:
      o += [cite('KNOWN_PREFIXES'), 'Definition %s_KNOWN_PREFIXES : list str :=\n  %s.' % (P, lst(c['KNOWN_PREFIXES'][0])), '']
    o += ['(** lang/%s/config.py DEFAULT_UNITS *)' % lang,
          'Definition %s_DEFAULT_UNITS : list uitem :=\n  %s_units %s_INITIAL_LETTERS %s_PARTICLES %s_KNOWN_PREFIXES.' % (P, lang, P, P, P)]
    open(out, 'w', encoding='utf8').write('\n'.join(o) + '\n')
gen('ru', ['config.py'], '/verif/rocq/theories/ConfigRu.v')
gen('uk', ['_prefixes.py', 'config.py'], '/verif/rocq/theories/ConfigUk.v')

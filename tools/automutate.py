#!/usr/bin/env python3
"""Writes a batch of random one-token edits of the model.  usage: automutate.py SEED PER_FILE OUT.py FILE.v ...
Each edit changes one line of a Definition, Fixpoint or Inductive (not of a proof or a comment): a comparison, a connective, a
constant, a boolean, an arithmetic operator, the order of two branches or a dropped element."""
import sys, re, random
seed, per, out, files = int(sys.argv[1]), int(sys.argv[2]), sys.argv[3], sys.argv[4:]
rnd = random.Random(seed)
root = '/verif/rocq/theories/'
def edits(line):
    es = []
    def sub(pat, rep):
        for m in re.finditer(pat, line):
            r = rep(m) if callable(rep) else rep
            if r is not None and r != m.group(): es.append(line[:m.start()] + r + line[m.end():])
    sub(r'<=\?', '<?'); sub(r'(?<!=)<\?', '<=?'); sub(r'>\?', '>=?'); sub(r'>=\?', '>?'); sub(r'(?<![<>])=\?', '<=?')
    sub(r'&&', '||'); sub(r'\|\|', '&&'); sub(r'\bnegb \(', '('); sub(r'\btrue\b', 'false'); sub(r'\bfalse\b', 'true')
    sub(r'(?<![\w.%"])(\d+)(?![\w."])', lambda m: str(int(m.group(1)) + 1)); sub(r'(?<![\w.%"])([1-9]\d*)(?![\w."x])', lambda m: str(int(m.group(1)) - 1))
    sub(r' \+ ', ' - '); sub(r' - ', ' + '); sub(r' \* (?!\w+%type)', ' + ')
    sub(r'\bif (.*?) then (.*?) else (.*)$', lambda m: 'if %s then %s else %s' % (m.group(1), m.group(3), m.group(2)) if m.group(3).count('(') == m.group(3).count(')') and m.group(2).count('(') == m.group(2).count(')') and 'if ' not in m.group(3) and not m.group(3).endswith('.') else None)
    sub(r'\bexistsb\b', 'forallb'); sub(r'\bforallb\b', 'existsb'); sub(r'\bfirstn\b', 'skipn'); sub(r'\bskipn\b', 'firstn'); sub(r'\bfst\b', 'snd'); sub(r'\bsnd\b', 'fst')
    sub(r'\brev \(?', lambda m: '(' if m.group().endswith('(') else '')
    sub(r'(?<=[\w\])]) \+\+ \[[^][]*\]', '')
    return es
muts = []
for f in files:
    src = open(root + f).read()
    clean = re.sub(r'\(\*.*?\*\)', lambda m: re.sub(r'[^\n]', ' ', m.group()), src, flags=re.S)
    lines, clines = src.split('\n'), clean.split('\n')
    cand, name, inside = [], None, False
    for l, c in zip(lines, clines):
        m = re.match(r'(Definition|Fixpoint|Inductive|Record|Lemma|Theorem|Example|Proof|Ltac|Notation|From|Section|Corollary|Instance|Class)\b\s*([\w\']*)', c)
        if m:
            inside = m.group(1) in ('Definition', 'Fixpoint', 'Inductive'); name = m.group(2)
            if re.match(r'.*: (?:forall|Forall|exists)', c) and m.group(1) == 'Definition' and False: inside = False
        if inside and l == c and src.count(l) == 1 and l.strip():
            body = l
            head = re.match(r'(?:Definition|Fixpoint)\s+[\w\']+.*?:=', l)
            for e in edits(l):
                if head and not e.startswith(head.group()): continue      # leave the heading alone
                if not head and re.match(r'(Definition|Fixpoint|Inductive)', l): continue
                cand.append((name, l, e))
    rnd.shuffle(cand)
    seen = {}
    n = 0
    for name, l, e in cand:                       # spread over the definitions
        if seen.get(name, 0) >= 2: continue
        seen[name] = seen.get(name, 0) + 1
        muts.append((f, name, l, e, 'random edit')); n += 1
        if n >= per: break
open(out, 'w').write('# written by tools/automutate.py with seed %d\nmuts = [\n%s\n]\n' % (seed, '\n'.join(repr(m) + ',' for m in muts)))
print(len(muts))

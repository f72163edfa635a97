#!/usr/bin/env python3
"""Try wrong programs: apply each edit to a scratch copy of the model, rebuild, admit (in the scratch copy)
every proof that breaks, and report which property theorems now rest on a broken proof.

usage: seed.py edits.json   with  [{"file","definition","old","new","edit","claim"}...]
An edit may have "targets": ["PropertiesX", ...]; then only these files and what they need are rebuilt.
Appends one line per edit to /verif/seeded/LOG.jsonl (unless "dry": true)."""
import glob, json, os, re, shutil, subprocess, sys
from concurrent.futures import ThreadPoolExecutor

BASE, WORK = '/tmp/seedbase', '/tmp/seedwork'
HEAD = re.compile(r'^\s*(?:Local |Global |#\[\w+\] )?(Lemma|Theorem|Example|Corollary|Fact|Remark|Instance)\s+([\w\']+)', re.M)

def sh(cmd, cwd, t=1500):
    try:
        p = subprocess.run(cmd, shell=True, cwd=cwd, stdout=subprocess.PIPE, stderr=subprocess.STDOUT, text=True, timeout=t)
        return p.stdout
    except subprocess.TimeoutExpired as e:
        return 'TIMEOUT'

def refresh_base():
    sh(f'rm -rf {BASE} && cp -a /verif/rocq {BASE}', '/')
    sh('coq_makefile -f _CoqProject -o Makefile && make -j4', BASE)

def admit_at(path, line):
    src = open(path).read()
    pos = sum(len(l) + 1 for l in src.split('\n')[:line - 1])
    heads = [m for m in HEAD.finditer(src) if m.start() <= pos + 1]
    if not heads:
        return None
    m = heads[-1]
    nxt = HEAD.search(src, m.end())
    end = nxt.start() if nxt else len(src)
    seg = src[m.start():end]
    p = re.search(r'\bProof\b', seg)
    q = re.search(r'\b(Qed|Defined)\.', seg)
    if not p or not q or m.start() + q.end() < pos - 2:
        return None
    if pos < m.start() + p.start() - 0 and src.count('\n', 0, m.start() + p.start()) + 1 > line:
        return None
    new = seg[:p.start()] + 'Proof. Admitted.' + seg[q.end():]
    open(path, 'w').write(src[:m.start()] + new + src[end:])
    return m.group(2)

def stuck(out):
    """proofs on which coqc was still busy after the time limit: (file, line) of the sentence reached"""
    res = []
    for f in re.findall(r'theories/(\w+)\.vo\] Error 124', out):
        log = sh(f'timeout 200 coqc -q -time -Q theories Verif theories/{f}.v', WORK, 300)
        ends = re.findall(r'^Chars \d+ - (\d+) ', log, re.M)
        if ends:
            src = open(f'{WORK}/theories/{f}.v', 'rb').read()
            k = int(ends[-1])
            while src[k:k+1].isspace(): k += 1
            res.append((f + '.v', str(src[:k].count(b'\n') + 1)))
    return res

def assumptions(work, targets):
    """C-theorem -> set of axiom names"""
    res = {}
    def same(f):  # not rebuilt since the copy: nothing it depends on was edited
        vo, old = f + 'o', f.replace(WORK, BASE) + 'o'
        return os.path.exists(vo) and os.path.exists(old) and os.path.getmtime(vo) == os.path.getmtime(old)
    files = [f for f in sorted(glob.glob(work + '/theories/Properties*.v')) if not same(f)]
    if targets:
        files = [f for f in files if os.path.basename(f)[:-2] in targets]
    with ThreadPoolExecutor(3) as pool:
        outs = list(pool.map(lambda f: sh(f'coqc -q -Q theories Verif {os.path.relpath(f, work)}', work), files))
    for f, out in zip(files, outs):
        src = open(f).read()
        cmds = re.findall(r'^\s*Print Assumptions ([\w\']+)\.', src, re.M)
        blocks = re.split(r'^(?=Axioms:|Closed under the global context)', out, flags=re.M)[1:]
        for name, bl in zip(cmds, blocks):
            res[name] = set(x.split('.')[-1] for x in re.findall(r"^([\w.']+)\s*:", bl, re.M))
        if len(cmds) != len(blocks):
            print('  warning: could not match assumptions of', f, len(cmds), len(blocks))
    return res

def one(e):
    sh(f'rm -rf {WORK} && cp -a {BASE} {WORK}', '/')
    path = f"{WORK}/theories/{e['file']}"
    src = open(path).read()
    n = src.count(e['old'])
    if n != 1:
        return dict(error=f"old text occurs {n} times")
    open(path, 'w').write(src.replace(e['old'], e['new']))
    broken, tried = [], set()
    for _ in range(80):
        out = sh("make -k -j4 COQC='timeout 240 coqc' " + ' '.join(f'theories/{t}.vo' for t in e.get('targets', [])) + " 2>&1", WORK)
        errs = stuck(out) + re.findall(r'File "\./theories/([\w]+\.v)", line (\d+), characters [\d-]+:\nError', out)
        if not errs:
            if 'Error' in out or 'TIMEOUT' in out:
                return dict(error='build: ' + out[-500:], broken=broken)
            break
        for f, l in errs:
            name = admit_at(f'{WORK}/theories/{f}', int(l))
            if name is None or (f, name) in tried:
                return dict(error=f'cannot admit at {f}:{l}: ' + out[-700:], broken=broken)
            tried.add((f, name))
            broken.append(name)
    ass = assumptions(WORK, e.get('targets'))
    failed = sorted(t for t, a in ass.items() if re.match(r'C\d\d', t) and (t in broken or a & set(broken)))
    return dict(broken=broken, failed=failed)

if __name__ == '__main__':
    edits = json.load(open(sys.argv[1]))
    refresh_base()
    for e in edits:
        r = one(e)
        print('==', e['definition'], '|', e['edit'], '|', e['claim'])
        if 'error' in r:
            print('   ERROR', r['error'], r.get('broken'))
            continue
        print('   broken:', r['broken'])
        print('   failed:', r['failed'], flush=True)
        if not e.get('dry'):
            with open('/verif/seeded/LOG.jsonl', 'a') as f:
                f.write(json.dumps(dict(definition=e['definition'], file=e['file'], edit=e['edit'], claim_broken=e['claim'],
                        theorems_failed=r['failed'], lemmas_failed=r['broken'], theorems_tightened=e.get('tightened', []))) + '\n')

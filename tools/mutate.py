#!/usr/bin/env python3
"""Mutation testing of the theorems.

  mutate.py prep [FILE.v ...]    copy theories/ to $MUT/base, add 'Proof using' annotations, record which lemmas each
                                 property theorem depends on
  mutate.py run FILE.json [...]  apply mutants (list of {id, file, old, new, edit, claim, definition}) in scratch copies,
                                 report the property theorems whose proof (or a lemma under it) fails

Nothing in /verif is changed."""
import sys, os, re, json, subprocess, shutil, glob
from concurrent.futures import ThreadPoolExecutor
SRC = '/verif/rocq/theories'
MUT = os.environ.get('MUT', '/tmp/mut')
BASE = MUT + '/base'
LEM = re.compile(r'^[ \t]*(?:Local |Global )?(?:Lemma|Theorem|Example|Corollary|Remark|Fact)\s+([\w\']+)', re.M)
PRF = re.compile(r'\bProof\b(?: using [^.]*)?\.')

def order():
    fs = [os.path.basename(l.strip()) for l in open('/verif/rocq/_CoqProject') if l.strip().endswith('.v')]
    out = []
    def visit(f):
        if f in out: return
        for g in sorted(deps_of(f, SRC)): visit(g + '.v')
        out.append(f)
    for f in fs: visit(f)
    return out

def lemmas(text):
    """(name, start, proof_start, proof_body_start, end) of each lemma; end is after Qed."""
    out = []
    for m in LEM.finditer(text):
        p = PRF.search(text, m.end())
        q = re.compile(r'\b(?:Qed|Defined)\.').search(text, p.end())
        out.append((m.group(1), m.start(), p.start(), p.end(), q.end()))
    return out

def coqc(d, f, *flags, timeout=1500):
    try:
        r = subprocess.run(['coqc', '-q', *flags, '-Q', '.', 'Verif', f], cwd=d, capture_output=True, text=True, timeout=timeout)
        return r.returncode, r.stdout + r.stderr
    except subprocess.TimeoutExpired:
        return -9, 'TIMEOUT'

def deps_of(f, d):
    t = open(d + '/' + f).read()
    mods = set()
    for m in re.finditer(r'From Verif Require Import ([^.]*)\.', t):
        mods |= set(m.group(1).split())
    return mods

def prep(only=()):
    """With file names: only these files and those that depend on them."""
    fs = order()
    if only:
        old = json.load(open(MUT + '/deps.json'))
        aff = set(x[:-2] for x in only); sel = []
        for f in fs:
            if f in only or deps_of(f, SRC) & aff: aff.add(f[:-2]); sel.append(f)
        fs = sel; allnames = old['where']; keep = {n: i for n, i in old['deps'].items() if i['file'] not in sel}
    else:
        allnames = {}; keep = {}
        if not os.environ.get('RESUME'): shutil.rmtree(BASE, ignore_errors=True); os.makedirs(BASE)
    done = os.environ.get('RESUME', '').split(',')   # files an interrupted prep has finished
    for f in fs:
        if f not in done: shutil.copy(SRC + '/' + f, BASE)
    def one(f):
        t = open(BASE + '/' + f).read()
        tmp = f
        open(BASE + '/' + f, 'w').write('Set Suggest Proof Using. ' + t)
        rc, out = coqc(BASE, f)
        assert rc == 0, (f, out[-2000:])
        sug = {}
        for m in re.finditer(r"The proof of ([\w']+)\s+should start with(?: one of the following commands)?:\s+(Proof using [^.]*\.)", out):
            sug.setdefault(m.group(1), []).append(re.sub(r'\s+', ' ', m.group(2)))
        ls = lemmas(t)
        res = t
        for (n, s, ps, pe, e) in reversed(ls):
            u = sug.get(n)
            if u:
                res = res[:ps] + u.pop() + res[pe:]
        open(BASE + '/' + f, 'w').write(res)
        for (n, *_r) in ls: allnames[n] = f
        rc, out = coqc(BASE, f)
        assert rc == 0, (f, out[-2000:])
        print(f, len(ls), flush=True)
    for f in fs:
        if f in done:
            for (n, *_r) in lemmas(open(BASE + '/' + f).read()): allnames[n] = f
        else: one(f)
    # dependencies
    props = [f for f in fs if f.startswith('Props')]
    thms = []
    for f in props:
        thms += [(f, n) for (n, *_r) in lemmas(open(BASE + '/' + f).read()) if re.match(r'C\d\d', n)]
    def dep(ft):
        f, n = ft
        src = 'From Verif Require Import %s.\nPrint Opaque Dependencies %s.\n' % (f[:-2], n)
        p = '%s/d_%s.v' % (MUT, n)
        open(p, 'w').write(src)
        r = subprocess.run(['coqc', '-q', '-Q', BASE, 'Verif', p], capture_output=True, text=True)
        ns = set(re.findall(r"^([\w'.]+) :", r.stdout, re.M))
        ns = {x.split('.')[-1] for x in ns} & set(allnames)
        for x in glob.glob('%s/*d_%s.*' % (MUT, n)): os.remove(x)
        return n, {'file': f, 'deps': sorted(ns)}
    with ThreadPoolExecutor(4) as ex:
        deps = {**keep, **dict(ex.map(dep, thms))}
    json.dump({'deps': deps, 'where': allnames}, open(MUT + '/deps.json', 'w'))
    print('theorems', len(deps))

def check_file(d, f):
    """Names of lemmas in f that fail; None if a definition fails."""
    failed = []
    done = 0           # lemmas processed so far
    text = open(d + '/' + f).read()
    while True:
        rc, out = coqc(d, f, '-vok')
        if rc == 0: return failed
        ms = re.findall(r'File "\./%s", line (\d+), characters (\d+)-(\d+):\n(?:Error|Anomaly)' % re.escape(f), out)
        if not ms and rc != -9 and 'line' not in out: return failed + ['?' + out[-300:]]
        text = open(d + '/' + f).read()
        ls = lemmas(text)
        if ms:
            line, ch = int(ms[-1][0]), int(ms[-1][1])
            b = text.encode().split(b'\n')
            pos = len((b'\n'.join(b[:line - 1]) + (b'\n' if line > 1 else b'')).decode()) + len(b[line - 1][:ch].decode(errors='ignore'))
            hit = [i for i, l in enumerate(ls) if l[1] <= pos < l[4]]
            if not hit: return failed + ['?DEF:' + out[-400:]]
            i = hit[0]
            if pos < ls[i][2]: return failed + ['?STMT %s: %s' % (ls[i][0], out[-400:])]
        else:
            return failed + ['?TIMEOUT in ' + f]
        if ls[i][0] in failed: return failed + ['?AGAIN %s: %s' % (ls[i][0], out[-400:])]
        failed.append(ls[i][0])
        for j in range(i, -1, -1):
            (n, s, ps, pe, e) = ls[j]
            text = text[:pe] + ' destruct MUT_FALSE. Qed.' + text[e:]
        open(d + '/' + f, 'w').write(text)

def run_one(m):
    info = json.load(open(MUT + '/deps.json'))
    d = MUT + '/m_' + m['id']
    shutil.rmtree(d, ignore_errors=True); os.makedirs(d)
    fs = order()
    fs = [f for f in fs if os.path.exists(BASE + '/' + f)]
    for f in fs:
        shutil.copy(BASE + '/' + f, d)
    edits = m['edits'] if 'edits' in m else [m]
    changed = set()
    for e in edits:
        p = d + '/' + e['file']
        t = open(p).read()
        if t.count(e['old']) != e.get('count', 1):
            return {'id': m['id'], 'error': 'old text occurs %d times' % t.count(e['old'])}
        open(p, 'w').write(t.replace(e['old'], e['new']))
        changed.add(e['file'])
    affected = []
    aff = set(x[:-2] for x in changed)
    for f in fs:
        if f in changed or deps_of(f, d) & aff:
            aff.add(f[:-2]); affected.append(f)
    for f in fs:
        if f not in affected:
            for ext in ('.vo', '.vos', '.vok', '.glob'):
                s = BASE + '/' + f[:-2] + ext
                if os.path.exists(s): os.link(s, d + '/' + f[:-2] + ext)
            v = d + '/' + f[:-2] + '.vos'
            if os.path.exists(v) and os.path.getsize(v) == 0:
                pass
    failed = set(); odd = []
    claimed = set(re.findall(r'C\d+', m.get('claim') or ''))
    def claims(n): return re.match(r'C\d+', n) and (not claimed or re.match(r'C\d+', n).group(0) in claimed)
    if os.environ.get('STOP') and claimed:   # the files the claimed theorems rest on, and what these import
        need = set()
        for n, i in info['deps'].items():
            if claims(n): need |= {i['file']} | {info['where'][x] for x in i['deps']}
        look = need | changed; need = set(look)
        for f in reversed(affected):
            if f in need: need |= {x + '.v' for x in deps_of(f, d)}
        affected = [f for f in affected if f in need]
    else: look = set(affected)
    for f in affected:
        t = open(d + '/' + f).read()
        open(d + '/' + f, 'w').write('Axiom MUT_FALSE : False. ' + t)
        rc, out = coqc(d, f, '-vos')
        if rc != 0:
            return {'id': m['id'], 'error': 'does not compile: ' + f + ' ' + out[-600:]}
    def dead_now(): return [n for n, i in info['deps'].items() if n in failed or set(i['deps']) & failed]
    for f in affected:
        if f not in look: continue
        for x in check_file(d, f):
            if x.startswith('?'): odd.append(f + x)
            else: failed.add(x)
        # STOP: only the claimed properties are looked at, and nothing more once a theorem of theirs has failed
        if os.environ.get('STOP') and any(claims(n) and not re.search('witness|refuted', n) for n in dead_now()): break
    dead = dead_now()
    shutil.rmtree(d, ignore_errors=True)
    return {'id': m['id'], 'failed_lemmas': sorted(failed), 'failed_theorems': sorted(dead), 'odd': odd}

def main():
    if sys.argv[1] == 'prep': return prep(sys.argv[2:])
    ms = []
    for p in sys.argv[2:]:
        ms += json.load(open(p))
    only = os.environ.get('ONLY')
    if only: ms = [m for m in ms if m['id'] in only.split(',')]
    with ThreadPoolExecutor(int(os.environ.get('J', '3'))) as ex:
        for m, r in zip(ms, ex.map(run_one, ms)):
            print(json.dumps({**r, 'claim': m.get('claim')}), flush=True)
            open(MUT + '/results.jsonl', 'a').write(json.dumps({**{k: m.get(k) for k in ('definition', 'edit', 'claim')}, **r}) + '\n')
main()

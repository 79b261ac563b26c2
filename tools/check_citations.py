#!/usr/bin/env python3
# Check that the source citations in the comments of rocq/theories/*.v name existing lines of /repo
# and, where a function or constant is named just before, that they lie within it.
# A name that is also an English word (file, types, attributes, version, schema) can be reported wrongly.
import re,glob,ast,os,collections
idx={}
for p in glob.glob('/repo/**/*.py',recursive=True):
    try: src=open(p).read(); t=ast.parse(src)
    except Exception: continue
    d=collections.defaultdict(list)
    for n in ast.walk(t):
        if isinstance(n,(ast.FunctionDef,ast.ClassDef,ast.AsyncFunctionDef)):
            d[n.name].append((min([n.lineno]+[x.lineno for x in n.decorator_list]),n.end_lineno))
        if isinstance(n,ast.Assign):
            for x in n.targets:
                if isinstance(x,ast.Name): d[x.id].append((n.lineno,n.end_lineno))
    idx[os.path.relpath(p,'/repo')]=(len(src.split('\n'))-1,d)
bad=0;tot=0;named=0
for f in sorted(glob.glob('/verif/rocq/theories/*.v')):
    s=open(f).read()
    for m in re.finditer(r'\(\*\*?(.*?)\*\)',s,re.S):
        c=re.sub(r'\s+',' ',m.group(1))
        for k in re.finditer(r'([\w/]+\.py)[: ]\s*(?:lines? )?(\d+)(?:-(\d+))?',c):
            tot+=1
            fn,a,b=k.group(1),int(k.group(2)),int(k.group(3) or k.group(2))
            c2=[p for p in idx if p.endswith('/'+fn) or p==fn]
            ln=s[:m.start()].count('\n')+1
            if not c2: print(f'{os.path.basename(f)}:{ln} NOFILE {fn}');bad+=1;continue
            pre=c[:k.start()]
            nm=re.search(r'([\w.]+)(?:\([^)]*\))?,? *$',pre)
            ok=False;why=''
            for p in c2:
                n,d=idx[p]
                if b>n: why=f'past end {n}';continue
                name=nm and nm.group(1).split('.')[-1]
                if name in d:
                    named+=1
                    if any(x<=a and b<=y for x,y in d[name]): ok=True
                    else: why=f'{name} is {d[name]}'
                else: ok=True
            if not ok: print(f'{os.path.basename(f)}:{ln} {fn}:{a}-{b} {why} {c2}');bad+=1
print(tot,named,bad)

"""Which functions of /repo/src/teacher are cited by a model comment (file.py:a-b overlapping the definition)?"""
import ast, glob, os, re
R = '/repo/src/teacher'
cites = {}
for f in glob.glob('/verif/rocq/theories/*.v'):
    t = open(f).read()
    for com in re.findall(r'\(\*\*?(.*?)\*\)', t, re.S):
        last = None
        for m in re.finditer(r'([\w/]+\.py)?:?\s*(\d+)(?:-(\d+))?', com):
            pass
        for m in re.finditer(r'([\w/]+\.py):((?:\s*\d+(?:-\d+)?,?(?:\s+and)?)+)', com):
            for a, b in re.findall(r'(\d+)(?:-(\d+))?', m.group(2)):
                cites.setdefault(os.path.basename(m.group(1)), []).append((int(a), int(b or a), os.path.basename(f)))
for p in sorted(glob.glob(R + '/**/*.py', recursive=True)):
    if '/tests/' in p: continue
    n = os.path.basename(p); tree = ast.parse(open(p).read())
    for node in ast.walk(tree):
        if isinstance(node, ast.FunctionDef):
            hit = [c for c in cites.get(n, []) if c[0] <= node.end_lineno and c[1] >= node.lineno]
            if not hit: print(os.path.relpath(p, R), node.name, node.lineno, node.end_lineno)

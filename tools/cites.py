"""List the citations of the model files next to the cited source, to check them by eye."""
import re,os,sys
os.chdir('/verif/rocq/theories')
src={f:open('/repo/rebulk/'+f).read().split('\n') for f in os.listdir('/repo/rebulk') if f.endswith('.py')}
def enclosing(f,ln):
    L=src[f]
    if ln>len(L): return 'OUT OF FILE',0
    for i in range(ln-1,-1,-1):
        m=re.match(r'\s*(?:async )?(def|class)\s+(\w+)',L[i])
        if m: return m.group(2),i+1
    return None,0
for f in sys.argv[1:]:
    t=open(f+'.v').read()
    for m in re.finditer(r'(\w+\.py):(\d+)(?:-(\d+))?((?:,? (?:and )?\d+-\d+|, \d+)*)([^\n]{0,60})',t):
        py,a,b=m.group(1),int(m.group(2)),int(m.group(3) or m.group(2))
        if py not in src: print('??',m.group(0));continue
        e,l=enclosing(py,b)
        print(f"{f}:{t[:m.start()].count(chr(10))+1}: {py}:{a}-{b}{m.group(4)}{m.group(5)[:45]!r}  | encl {e}@{l} | {(src[py]+['']*999)[a-1].strip()[:50]!r}")

# usage: edit PID, PROP, ROW, FINDING vars in a file and exec
import sys
exec(open(sys.argv[1]).read())
s=open('tools/mkprops.py').read()
assert '"%s"'%PID not in s
s=s.replace('if __name__ ==',PROP+'if __name__ ==',1); open('tools/mkprops.py','w').write(s)
d=open('DESIGN.md').read()
prev='| C%02d '%(int(PID[1:])-1)
i=d.index(prev); j=d.index('\n',i)
d=d[:j+1]+ROW+"\n"+d[j+1:]
if FINDING:
    assert LAST in d
    d=d.replace(LAST,LAST[:-1]+";\n"+FINDING)
open('DESIGN.md','w').write(d)

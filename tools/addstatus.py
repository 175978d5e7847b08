import sys
# usage: addstatus.py Cxx status note
p='/verif/tools/status.py'
s=open(p).read().rstrip()
assert s.endswith('}')
s=s[:-1]+'%r: (%r, %r),\n}\n'%(sys.argv[1],sys.argv[2],sys.argv[3])
open(p,'w').write(s)

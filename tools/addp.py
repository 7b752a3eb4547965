import sys
def addp(text):
    f='/verif/tools/gen_properties.py'
    s=open(f).read()
    i=s.index("with open(") if "with open(" in s else s.index("json.dump")
    s=s[:i]+text+s[i:]
    open(f,'w').write(s)
addp(sys.stdin.read())

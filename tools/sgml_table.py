import re
L=open('/repo/include/stdex/sgml_unicode.hpp',encoding='utf-8').read().split('\n')
tab=[]
for l in L[25:1561]:
    m=re.match(r'\s*\{ "([^"]*)", _UTF32_\("((?:\\.|[^"\\])*)"\) \},?',l)
    if m:
        s=m.group(2); u=[]
        i=0
        while i<len(s):
            if s[i]=='\\':
                if s[i+1]=='u': u.append(int(s[i+2:i+6],16)); i+=6
                elif s[i+1]=='U': u.append(int(s[i+2:i+10],16)); i+=10
                elif s[i+1]=='x': 
                    mm=re.match(r'[0-9a-fA-F]+',s[i+2:]); u.append(int(mm.group(),16)); i+=2+len(mm.group())
                else: u.append({'n':10,'t':9,'\\':92,'"':34,"'":39}[s[i+1]]); i+=2
            else: u.append(ord(s[i])); i+=1
        tab.append((m.group(1),u))
    elif l.strip() and l.strip()!='};': print('??',l)
idx=[int(x,16) for x in re.findall(r'0x[0-9a-f]+','\n'.join(L[1562:3099]))]

import sys
# usage: addp.py file_with_p_calls
src=open(sys.argv[1]).read()
p='/verif/tools/gen_props.py'
s=open(p).read()
i=s.index("with open('/verif/properties.jsonl'")
s=s[:i]+src.strip()+"\n\n"+s[i:]
open(p,'w').write(s)

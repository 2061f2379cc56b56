import subprocess,sys
# usage: q.py file line : compile up to before that line and print goal
f,l=sys.argv[1],int(sys.argv[2])
t=open(f).read().split('\n')[:l-1]
open('/tmp/qq.v','w').write('\n'.join(t)+'\nShow.\n')
r=subprocess.run(['coqtop','-Q','theories','Verif','-l','/tmp/qq.v','-batch'],capture_output=True,text=True,timeout=300)
print(r.stdout[-6000:],r.stderr[-2000:])

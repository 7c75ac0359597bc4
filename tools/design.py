import subprocess, sys
t = open('/verif/tools/design_template.md').read()
more = ''
try: more = open('/verif/tools/design_more.md').read().rstrip('\n')
except FileNotFoundError: pass
t = t.replace('@@MORE@@\n', more + '\n' if more else '').replace('@@NOT@@', open('/verif/tools/not_modelled.md').read().rstrip('\n'))
t = t.replace('@@ASSUME@@', open('/verif/tools/assumptions.md').read().rstrip('\n'))
t = t.replace('Three answers occur', 'The following answers occur')
open('/verif/DESIGN.md', 'w').write(t)

*.vo
*.vok
*.vos
*.glob
*.aux
.*.aux
.lia.cache
.nra.cache
.Makefile.d
Makefile
Makefile.conf
*.conf
.CoqMakefile.d
.nia.cache
.lia.cache

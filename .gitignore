*.vo
*.vok
*.vos
*.glob
*.aux
.*.aux
.lia.cache
.nia.cache
.Makefile.d
Makefile
Makefile.conf
.CoqMakefile.d
*.d

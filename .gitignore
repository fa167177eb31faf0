*.vo
*.vok
*.vos
*.glob
*.aux
.*.aux
*.cache
.Makefile.d
Makefile
Makefile.conf
.CoqMakefile.d

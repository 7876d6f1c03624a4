*.vo
*.vok
*.vos
*.glob
*.aux
.*.aux
Makefile
Makefile.conf
.Makefile.d
*.d
.nra.cache
.lia.cache
.nia.cache

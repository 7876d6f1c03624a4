*.vo
*.vok
*.vos
*.glob
*.aux
.*.aux
*.vio
Makefile
Makefile.conf
.Makefile.d
*.lia.cache
.lia.cache
.nia.cache
.coqdeps.d
.CoqMakefile.d
__pycache__/

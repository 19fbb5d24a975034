*.vo
*.vok
*.vos
*.glob
*.aux
.*.aux
.lia.cache
.nia.cache
.nra.cache
.Makefile.d
Makefile
Makefile.conf
.coqdeps.d
lib/

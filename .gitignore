*.vo
*.vok
*.vos
*.glob
.*.aux
.lia.cache
.nia.cache
.coqdeps.d
.Makefile.d
Makefile
Makefile.conf
.Makefile.coq.d
*.swp
.nra.cache

*.vo
*.vok
*.vos
*.glob
*.aux
.*.aux
.lia.cache
.nra.cache
.nia.cache
.csdp.cache
Makefile
Makefile.conf
.Makefile.d
.coqdeps.d

*.vo
*.vok
*.vos
*.glob
.*.aux
.Makefile.d
Makefile
Makefile.conf
.lia.cache
.nia.cache
.nra.cache
*.csdp.cache

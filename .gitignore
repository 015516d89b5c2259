*.vo
*.vok
*.vos
*.glob
*.aux
.*.aux
Makefile
Makefile.conf
.Makefile.d
*.d
.lia.cache
.nia.cache
.coqdeps.d

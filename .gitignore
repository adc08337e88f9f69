*.vo
*.vok
*.vos
*.glob
*.aux
.*.aux
*.d
.coqdeps.d
.Makefile.d
rocq/Makefile
rocq/Makefile.conf
.lia.cache
.nia.cache
.nra.cache

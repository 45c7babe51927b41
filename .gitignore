*.vo
*.vos
*.vok
*.glob
*.aux
.*.aux
.lia.cache
.nia.cache
.Makefile.d
.coqdeps.d
rocq/Makefile
rocq/Makefile.conf

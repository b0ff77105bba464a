*.vo
*.vok
*.vos
*.glob
.*.aux
rocq/Makefile
rocq/Makefile.conf
.Makefile.d
*.d
.lia.cache
.nia.cache
*.nra.cache
*.lia.cache

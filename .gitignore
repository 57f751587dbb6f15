*.vo
*.vos
*.vok
*.glob
*.aux
.lia.cache
.nia.cache
Makefile
Makefile.conf
.Makefile.d
.nra.cache
__pycache__/

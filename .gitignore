*.vo
*.vok
*.vos
*.glob
.*.aux
*.aux
.lia.cache
.nia.cache
rocq/Makefile
rocq/Makefile.conf
rocq/.Makefile.d
__pycache__

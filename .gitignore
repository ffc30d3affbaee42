.lia.cache
.nia.cache
*.aux
*.glob
*.vo
*.vok
*.vos
rocq/Makefile*
rocq/.Makefile*
.CoqMakefile.d
.nra.cache

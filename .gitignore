.nra.cache

*.cache

{"partial": {}, "na": {}, "notes": {
"C01": "binary64 endpoints, any conforming std::sort",
"C05": "the disjointness guard of C04 is necessary (witness), completeness for all inputs",
"C06": "theorem plus witness that later outer intervals are dropped",
"C07": "touching obstacle intervals merge, so free means outside the interior of their union"
}}

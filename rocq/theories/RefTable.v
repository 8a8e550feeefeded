(** The function table of the library (pfaast.py:368-409, FunctionTable.blank): for each function its signatures, whether its
    method reads the argument paramTypes, and the kind of code a direct call becomes. Read off the classes of
    titus/lib; the modules are in alphabetical order, in each the functions in the order of the file. *)
From Verif Require Import Base VersionModel.
Open Scope string_scope.
Open Scope list_scope.
Open Scope Z_scope.

(** genpy of a class: inherited (fcn.py:32-34), an expression of its own in the arguments, the same where Python may leave
    the second argument unevaluated, the arguments wrapped in lambdas, or arguments added after the others *)
Inductive gkind := KMethod | KInline | KLazy | KThunks | KExtra.
(** One function; [t_cases]: for each signature whether it has wildcards, and its lifespan (signature.py:289-345) *)
Record entry := En { t_name : string; t_cases : list (bool * lifespan); t_reads : bool; t_gen : gkind }.

Definition always : lifespan := Life None None None.                              (* the default, signature.py:337 *)
(** Lifespan(None, PFAVersion(0, 7, 2), PFAVersion(0, 9, 0), ...): the only other one in the library *)
Definition ending : lifespan := Life None (Some (Ver 0 7 2)) (Some (Ver 0 9 0)).
Definition plain1 : list (bool * lifespan) := [(false, always)].
Definition wild1 : list (bool * lifespan) := [(true, always)].

(** lib/array.py *)
Definition lib_array : list entry := [
  En "a.len" wild1 false KInline;  (* 58 *)
  En "a.subseq" wild1 false KInline;  (* 68 *)
  En "a.head" wild1 false KMethod;  (* 78 *)
  En "a.tail" wild1 false KMethod;  (* 89 *)
  En "a.last" wild1 false KMethod;  (* 100 *)
  En "a.init" wild1 false KMethod;  (* 111 *)
  En "a.subseqto" wild1 false KMethod;  (* 122 *)
  En "a.contains" [(true, always); (true, always); (true, always)] false KMethod;  (* 135 *)
  En "a.count" [(true, always); (true, always); (true, always)] false KMethod;  (* 161 *)
  En "a.index" [(true, always); (true, always); (true, always)] false KMethod;  (* 190 *)
  En "a.rindex" [(true, always); (true, always); (true, always)] false KMethod;  (* 214 *)
  En "a.startswith" [(true, always); (true, always)] false KMethod;  (* 238 *)
  En "a.endswith" [(true, always); (true, always)] false KMethod;  (* 253 *)
  En "a.concat" wild1 false KInline;  (* 273 *)
  En "a.append" wild1 false KInline;  (* 283 *)
  En "a.cycle" wild1 false KMethod;  (* 293 *)
  En "a.insert" wild1 false KMethod;  (* 307 *)
  En "a.replace" wild1 false KMethod;  (* 319 *)
  En "a.remove" [(true, always); (true, always)] false KMethod;  (* 331 *)
  En "a.rotate" wild1 false KMethod;  (* 352 *)
  En "a.sort" wild1 true KMethod;  (* 369 *)
  En "a.sortLT" wild1 false KMethod;  (* 377 *)
  En "a.shuffle" wild1 false KMethod;  (* 385 *)
  En "a.reverse" wild1 false KMethod;  (* 395 *)
  En "a.max" wild1 true KMethod;  (* 471 *)
  En "a.min" wild1 true KMethod;  (* 482 *)
  En "a.maxLT" wild1 false KMethod;  (* 493 *)
  En "a.minLT" wild1 false KMethod;  (* 504 *)
  En "a.maxN" wild1 true KMethod;  (* 515 *)
  En "a.minN" wild1 true KMethod;  (* 528 *)
  En "a.maxNLT" wild1 false KMethod;  (* 541 *)
  En "a.minNLT" wild1 false KMethod;  (* 554 *)
  En "a.argmax" wild1 true KMethod;  (* 567 *)
  En "a.argmin" wild1 true KMethod;  (* 578 *)
  En "a.argmaxLT" wild1 false KMethod;  (* 589 *)
  En "a.argminLT" wild1 false KMethod;  (* 600 *)
  En "a.argmaxN" wild1 true KMethod;  (* 611 *)
  En "a.argminN" wild1 true KMethod;  (* 624 *)
  En "a.argmaxNLT" wild1 false KMethod;  (* 637 *)
  En "a.argminNLT" wild1 false KMethod;  (* 650 *)
  En "a.sum" wild1 true KMethod;  (* 665 *)
  En "a.product" wild1 true KMethod;  (* 685 *)
  En "a.lnsum" plain1 false KMethod;  (* 706 *)
  En "a.mean" plain1 false KMethod;  (* 721 *)
  En "a.geomean" plain1 false KMethod;  (* 739 *)
  En "a.median" wild1 true KMethod;  (* 750 *)
  En "a.mode" wild1 true KMethod;  (* 769 *)
  En "a.ntile" wild1 true KMethod;  (* 793 *)
  En "a.distinct" wild1 false KMethod;  (* 826 *)
  En "a.seteq" wild1 false KMethod;  (* 838 *)
  En "a.union" wild1 false KMethod;  (* 846 *)
  En "a.intersection" wild1 false KMethod;  (* 861 *)
  En "a.diff" wild1 false KMethod;  (* 876 *)
  En "a.symdiff" wild1 false KMethod;  (* 888 *)
  En "a.subset" wild1 false KMethod;  (* 903 *)
  En "a.disjoint" wild1 false KMethod;  (* 911 *)
  En "a.map" wild1 false KMethod;  (* 921 *)
  En "a.mapWithIndex" wild1 false KMethod;  (* 929 *)
  En "a.filter" wild1 false KMethod;  (* 937 *)
  En "a.filterWithIndex" wild1 false KMethod;  (* 945 *)
  En "a.filterMap" wild1 true KMethod;  (* 953 *)
  En "a.filterMapWithIndex" wild1 true KMethod;  (* 971 *)
  En "a.flatMap" wild1 false KMethod;  (* 989 *)
  En "a.flatMapWithIndex" wild1 false KMethod;  (* 1000 *)
  En "a.zipmap" [(true, always); (true, always); (true, always)] false KMethod;  (* 1011 *)
  En "a.zipmapWithIndex" [(true, always); (true, always); (true, always)] false KMethod;  (* 1027 *)
  En "a.reduce" wild1 false KMethod;  (* 1043 *)
  En "a.reduceRight" wild1 false KMethod;  (* 1054 *)
  En "a.fold" wild1 false KMethod;  (* 1065 *)
  En "a.foldRight" wild1 false KMethod;  (* 1073 *)
  En "a.takeWhile" wild1 false KMethod;  (* 1081 *)
  En "a.dropWhile" wild1 false KMethod;  (* 1095 *)
  En "a.any" wild1 false KMethod;  (* 1111 *)
  En "a.all" wild1 false KMethod;  (* 1119 *)
  En "a.corresponds" wild1 false KMethod;  (* 1127 *)
  En "a.correspondsWithIndex" wild1 false KMethod;  (* 1135 *)
  En "a.slidingWindow" wild1 false KMethod;  (* 1145 *)
  En "a.combinations" wild1 false KMethod;  (* 1166 *)
  En "a.permutations" wild1 false KMethod;  (* 1183 *)
  En "a.flatten" wild1 false KMethod;  (* 1198 *)
  En "a.groupby" wild1 false KMethod;  (* 1206 *)
  En "a.logsumexp" plain1 false KMethod ].  (* 1220 *)
(** lib/bytes.py *)
Definition lib_bytes : list entry := [
  En "bytes.len" plain1 false KInline;  (* 41 *)
  En "bytes.subseq" plain1 false KMethod;  (* 51 *)
  En "bytes.subseqto" plain1 false KMethod;  (* 62 *)
  En "bytes.isAscii" [(false, always); (false, always)] true KMethod;  (* 99 *)
  En "bytes.isLatin1" [(false, always); (false, always)] true KMethod;  (* 105 *)
  En "bytes.isUtf8" [(false, always); (false, always)] true KMethod;  (* 111 *)
  En "bytes.isUtf16" [(false, always); (false, always)] true KMethod;  (* 117 *)
  En "bytes.isUtf16be" [(false, always); (false, always)] true KMethod;  (* 123 *)
  En "bytes.isUtf16le" [(false, always); (false, always)] true KMethod;  (* 129 *)
  En "bytes.decodeAscii" plain1 false KMethod;  (* 148 *)
  En "bytes.decodeLatin1" plain1 false KMethod;  (* 154 *)
  En "bytes.decodeUtf8" plain1 false KMethod;  (* 160 *)
  En "bytes.decodeUtf16" plain1 false KMethod;  (* 166 *)
  En "bytes.decodeUtf16be" plain1 false KMethod;  (* 172 *)
  En "bytes.decodeUtf16le" plain1 false KMethod;  (* 178 *)
  En "bytes.encodeAscii" plain1 false KMethod;  (* 196 *)
  En "bytes.encodeLatin1" plain1 false KMethod;  (* 202 *)
  En "bytes.encodeUtf8" plain1 false KMethod;  (* 208 *)
  En "bytes.encodeUtf16" plain1 false KMethod;  (* 214 *)
  En "bytes.encodeUtf16be" plain1 false KMethod;  (* 220 *)
  En "bytes.encodeUtf16le" plain1 false KMethod;  (* 226 *)
  En "bytes.toBase64" plain1 false KMethod;  (* 234 *)
  En "bytes.fromBase64" plain1 false KMethod ].  (* 244 *)
(** lib/cast.py *)
Definition lib_cast : list entry := [
  En "cast.signed" plain1 false KMethod;  (* 65 *)
  En "cast.unsigned" plain1 false KMethod;  (* 80 *)
  En "cast.int" [(false, always); (false, always); (false, always); (false, always)] false KMethod;  (* 92 *)
  En "cast.long" [(false, always); (false, always); (false, always); (false, always)] false KMethod;  (* 116 *)
  En "cast.float" [(false, always); (false, always); (false, always); (false, always)] false KInline;  (* 140 *)
  En "cast.double" [(false, always); (false, always); (false, always); (false, always)] false KInline;  (* 153 *)
  En "cast.fanoutBoolean" [(true, always); (false, always); (false, always)] true KMethod;  (* 185 *)
  En "cast.fanoutInt" [(true, always); (false, always); (false, always)] true KMethod;  (* 202 *)
  En "cast.fanoutLong" [(true, always); (false, always); (false, always)] true KMethod;  (* 219 *)
  En "cast.fanoutFloat" [(true, always); (false, always); (false, always)] true KMethod;  (* 236 *)
  En "cast.fanoutDouble" [(true, always); (false, always); (false, always)] true KMethod;  (* 253 *)
  En "cast.avro" wild1 true KMethod;  (* 272 *)
  En "cast.json" wild1 true KMethod ].  (* 286 *)
(** lib/core.py *)
Definition lib_core : list entry := [
  En "+" wild1 true KMethod;  (* 62 *)
  En "-" wild1 true KMethod;  (* 70 *)
  En "*" wild1 true KMethod;  (* 78 *)
  En "/" plain1 false KMethod;  (* 86 *)
  En "//" wild1 false KMethod;  (* 94 *)
  En "u-" wild1 true KMethod;  (* 105 *)
  En "%" wild1 true KMethod;  (* 113 *)
  En "%%" wild1 true KMethod;  (* 127 *)
  En "**" wild1 true KMethod;  (* 197 *)
  En "cmp" wild1 true KMethod;  (* 219 *)
  En "==" wild1 true KMethod;  (* 227 *)
  En ">=" wild1 true KMethod;  (* 235 *)
  En ">" wild1 true KMethod;  (* 243 *)
  En "!=" wild1 true KMethod;  (* 251 *)
  En "<" wild1 true KMethod;  (* 259 *)
  En "<=" wild1 true KMethod;  (* 267 *)
  En "max" wild1 true KMethod;  (* 277 *)
  En "min" wild1 true KMethod;  (* 288 *)
  En "&&" plain1 false KLazy;  (* 301 *)
  En "||" plain1 false KLazy;  (* 311 *)
  En "^^" plain1 false KMethod;  (* 321 *)
  En "!" plain1 false KInline;  (* 329 *)
  En "&&&" plain1 false KThunks;  (* 341 *)
  En "|||" plain1 false KThunks;  (* 360 *)
  En "!!!" plain1 false KMethod;  (* 379 *)
  En "&" [(false, always); (false, always)] false KInline;  (* 394 *)
  En "|" [(false, always); (false, always)] false KInline;  (* 405 *)
  En "^" [(false, always); (false, always)] false KInline;  (* 417 *)
  En "~" [(false, always); (false, always)] false KInline ].  (* 428 *)
(** lib/enum.py *)
Definition lib_enum : list entry := [
  En "enum.toString" wild1 true KMethod;  (* 34 *)
  En "enum.toInt" wild1 true KMethod;  (* 45 *)
  En "enum.numSymbols" wild1 true KMethod ].  (* 56 *)
(** lib/fixed.py *)
Definition lib_fixed : list entry := [
  En "fixed.toBytes" wild1 false KMethod;  (* 34 *)
  En "fixed.fromBytes" wild1 false KMethod ].  (* 44 *)
(** lib/impute.py *)
Definition lib_impute : list entry := [
  En "impute.errorOnNull" wild1 true KMethod;  (* 36 *)
  En "impute.defaultOnNull" wild1 true KMethod;  (* 53 *)
  En "impute.isnan" [(false, always); (false, always)] false KMethod;  (* 70 *)
  En "impute.isinf" [(false, always); (false, always)] false KMethod;  (* 79 *)
  En "impute.isnum" [(false, always); (false, always)] false KMethod;  (* 88 *)
  En "impute.errorOnNonNum" [(false, always); (false, always)] false KMethod;  (* 97 *)
  En "impute.defaultOnNonNum" [(false, always); (false, always)] false KMethod ].  (* 114 *)
(** lib/interp.py *)
Definition lib_interp : list entry := [
  En "interp.bin" [(false, always); (false, always)] false KMethod;  (* 42 *)
  En "interp.nearest" [(true, always); (true, always); (true, always)] true KMethod;  (* 74 *)
  En "interp.linear" [(true, always); (true, always)] true KMethod;  (* 119 *)
  En "interp.linearFlat" [(true, always); (true, always)] true KMethod;  (* 183 *)
  En "interp.linearMissing" [(true, always); (true, always)] true KMethod ].  (* 198 *)
(** lib/kernel.py *)
Definition lib_kernel : list entry := [
  En "m.kernel.rbf" plain1 false KMethod;  (* 46 *)
  En "m.kernel.linear" plain1 false KMethod;  (* 60 *)
  En "m.kernel.poly" plain1 false KMethod;  (* 69 *)
  En "m.kernel.sigmoid" plain1 false KMethod ].  (* 81 *)
(** lib/la.py *)
Definition lib_la : list entry := [
  En "la.map" [(false, always); (false, always)] false KMethod;  (* 82 *)
  En "la.scale" [(false, always); (false, always); (false, always); (false, always)] false KMethod;  (* 96 *)
  En "la.zipmap" [(false, always); (false, always)] false KMethod;  (* 115 *)
  En "la.add" [(false, always); (false, always); (false, always); (false, always)] false KMethod;  (* 135 *)
  En "la.sub" [(false, always); (false, always); (false, always); (false, always)] false KMethod;  (* 166 *)
  En "la.dot" [(false, always); (false, always); (false, always); (false, always)] true KMethod;  (* 197 *)
  En "la.transpose" [(false, always); (false, always)] false KMethod;  (* 264 *)
  En "la.inverse" [(false, always); (false, always)] false KMethod;  (* 292 *)
  En "la.trace" [(false, always); (false, always)] false KMethod;  (* 319 *)
  En "la.det" [(false, always); (false, always)] false KMethod;  (* 341 *)
  En "la.symmetric" [(false, always); (false, always)] false KMethod;  (* 374 *)
  En "la.eigenBasis" [(false, always); (false, always)] false KMethod;  (* 411 *)
  En "la.truncate" [(false, always); (false, always)] false KMethod ].  (* 459 *)
(** lib/link.py *)
Definition lib_link : list entry := [
  En "m.link.softmax" [(false, always); (false, always)] true KMethod;  (* 41 *)
  En "m.link.logit" [(false, always); (false, always); (false, always)] false KMethod;  (* 84 *)
  En "m.link.probit" [(false, always); (false, always); (false, always)] false KMethod;  (* 94 *)
  En "m.link.cloglog" [(false, always); (false, always); (false, always)] false KMethod;  (* 104 *)
  En "m.link.loglog" [(false, always); (false, always); (false, always)] false KMethod;  (* 114 *)
  En "m.link.cauchit" [(false, always); (false, always); (false, always)] false KMethod;  (* 124 *)
  En "m.link.softplus" [(false, always); (false, always); (false, always)] false KMethod;  (* 134 *)
  En "m.link.relu" [(false, always); (false, always); (false, always)] false KMethod;  (* 144 *)
  En "m.link.tanh" [(false, always); (false, always); (false, always)] false KMethod ].  (* 154 *)
(** lib/map.py *)
Definition lib_map : list entry := [
  En "map.len" wild1 false KMethod;  (* 61 *)
  En "map.keys" wild1 false KMethod;  (* 69 *)
  En "map.values" wild1 false KMethod;  (* 77 *)
  En "map.containsKey" [(true, always); (true, always)] false KMethod;  (* 87 *)
  En "map.containsValue" [(true, always); (true, always)] false KMethod;  (* 102 *)
  En "map.add" [(true, always); (true, always)] true KMethod;  (* 122 *)
  En "map.remove" wild1 false KMethod;  (* 137 *)
  En "map.only" wild1 false KMethod;  (* 150 *)
  En "map.except" wild1 false KMethod;  (* 158 *)
  En "map.update" wild1 false KMethod;  (* 166 *)
  En "map.split" wild1 false KMethod;  (* 174 *)
  En "map.join" wild1 false KMethod;  (* 182 *)
  En "map.argmax" wild1 true KMethod;  (* 231 *)
  En "map.argmin" wild1 true KMethod;  (* 242 *)
  En "map.argmaxLT" wild1 false KMethod;  (* 253 *)
  En "map.argminLT" wild1 false KMethod;  (* 264 *)
  En "map.argmaxN" wild1 true KMethod;  (* 275 *)
  En "map.argminN" wild1 true KMethod;  (* 288 *)
  En "map.argmaxNLT" wild1 false KMethod;  (* 301 *)
  En "map.argminNLT" wild1 false KMethod;  (* 314 *)
  En "map.toset" wild1 true KMethod;  (* 329 *)
  En "map.fromset" wild1 false KMethod;  (* 337 *)
  En "map.in" wild1 true KMethod;  (* 345 *)
  En "map.union" wild1 false KMethod;  (* 353 *)
  En "map.intersection" wild1 false KMethod;  (* 361 *)
  En "map.diff" wild1 false KMethod;  (* 369 *)
  En "map.symdiff" wild1 false KMethod;  (* 377 *)
  En "map.subset" wild1 false KMethod;  (* 386 *)
  En "map.disjoint" wild1 false KMethod;  (* 394 *)
  En "map.map" wild1 false KMethod;  (* 404 *)
  En "map.mapWithKey" wild1 false KMethod;  (* 412 *)
  En "map.filter" wild1 false KMethod;  (* 420 *)
  En "map.filterWithKey" wild1 false KMethod;  (* 428 *)
  En "map.filterMap" wild1 true KMethod;  (* 436 *)
  En "map.filterMapWithKey" wild1 true KMethod;  (* 454 *)
  En "map.flatMap" wild1 false KMethod;  (* 472 *)
  En "map.flatMapWithKey" wild1 false KMethod;  (* 484 *)
  En "map.zipmap" [(true, always); (true, always); (true, always)] false KMethod;  (* 496 *)
  En "map.zipmapWithKey" [(true, always); (true, always); (true, always)] false KMethod;  (* 515 *)
  En "map.corresponds" wild1 false KMethod;  (* 536 *)
  En "map.correspondsWithKey" wild1 false KMethod ].  (* 549 *)
(** lib/metric.py *)
Definition lib_metric : list entry := [
  En "metric.simpleEuclidean" plain1 false KMethod;  (* 40 *)
  En "metric.absDiff" plain1 false KMethod;  (* 50 *)
  En "metric.gaussianSimilarity" plain1 false KMethod;  (* 58 *)
  En "metric.euclidean" [(true, always); (true, always)] true KMethod;  (* 92 *)
  En "metric.squaredEuclidean" [(true, always); (true, always)] true KMethod;  (* 105 *)
  En "metric.chebyshev" [(true, always); (true, always)] true KMethod;  (* 118 *)
  En "metric.taxicab" [(true, always); (true, always)] true KMethod;  (* 131 *)
  En "metric.minkowski" [(true, always); (true, always)] true KMethod;  (* 144 *)
  En "metric.simpleMatching" plain1 false KMethod;  (* 211 *)
  En "metric.jaccard" plain1 false KMethod;  (* 223 *)
  En "metric.tanimoto" plain1 false KMethod;  (* 235 *)
  En "metric.binarySimilarity" plain1 false KMethod ].  (* 247 *)
(** lib/model/cluster.py *)
Definition lib_model_cluster : list entry := [
  En "model.cluster.closest" [(true, always); (true, always)] false KMethod;  (* 38 *)
  En "model.cluster.closestN" [(true, always); (true, always)] false KMethod;  (* 56 *)
  En "model.cluster.randomSeeds" wild1 false KMethod;  (* 74 *)
  En "model.cluster.kmeansIteration" wild1 false KMethod;  (* 100 *)
  En "model.cluster.updateMean" wild1 false KMethod ].  (* 140 *)
(** lib/model/naive.py *)
Definition lib_model_naive : list entry := [
  En "model.naive.gaussian" [(true, always); (true, always)] false KMethod;  (* 38 *)
  En "model.naive.multinomial" [(false, always); (false, always); (true, always); (true, always)] true KMethod;  (* 74 *)
  En "model.naive.bernoulli" [(false, always); (true, always)] true KMethod ].  (* 121 *)
(** lib/model/neighbor.py *)
Definition lib_model_neighbor : list entry := [
  En "model.neighbor.mean" [(false, always); (false, always)] false KMethod;  (* 40 *)
  En "model.neighbor.nearestK" [(false, always); (true, always)] false KMethod;  (* 75 *)
  En "model.neighbor.ballR" [(false, always); (true, always)] false KMethod ].  (* 104 *)
(** lib/model/neural.py *)
Definition lib_model_neural : list entry := [
  En "model.neural.simpleLayers" wild1 false KMethod ].  (* 42 *)
(** lib/model/reg.py *)
Definition lib_model_reg : list entry := [
  En "model.reg.linear" [(true, always); (true, always); (true, always); (true, always)] true KMethod;  (* 47 *)
  En "model.reg.linearVariance" [(true, always); (true, always); (true, always); (true, always)] true KMethod;  (* 105 *)
  En "model.reg.gaussianProcess" [(true, always); (true, always); (true, always); (true, always)] true KMethod;  (* 156 *)
  En "model.reg.residual" [(false, ending); (false, ending); (false, ending)] false KMethod;  (* 379 *)
  En "model.reg.pull" [(false, ending); (false, ending); (false, ending)] false KMethod;  (* 409 *)
  En "model.reg.mahalanobis" [(false, ending); (false, ending)] false KMethod;  (* 449 *)
  En "model.reg.updateChi2" [(true, ending); (true, ending); (true, ending)] false KMethod;  (* 486 *)
  En "model.reg.reducedChi2" [(true, ending)] false KMethod;  (* 505 *)
  En "model.reg.chi2Prob" [(true, ending)] false KMethod ].  (* 513 *)
(** lib/model/svm.py *)
Definition lib_model_svm : list entry := [
  En "model.svm.score" wild1 false KMethod ].  (* 40 *)
(** lib/model/tree.py *)
Definition lib_model_tree : list entry := [
  En "model.tree.simpleTest" wild1 true KMethod;  (* 138 *)
  En "model.tree.compoundTest" wild1 false KMethod;  (* 146 *)
  En "model.tree.missingTest" wild1 true KMethod;  (* 171 *)
  En "model.tree.surrogateTest" wild1 false KMethod;  (* 188 *)
  En "model.tree.simpleWalk" wild1 true KMethod;  (* 203 *)
  En "model.tree.missingWalk" wild1 true KMethod;  (* 225 *)
  En "model.tree.simpleTree" wild1 true KMethod ].  (* 250 *)
(** lib/parse.py *)
Definition lib_parse : list entry := [
  En "parse.int" plain1 false KMethod;  (* 46 *)
  En "parse.long" plain1 false KMethod;  (* 63 *)
  En "parse.float" plain1 false KMethod;  (* 80 *)
  En "parse.double" plain1 false KMethod ].  (* 103 *)
(** lib/pfamath.py *)
Definition lib_pfamath : list entry := [
  En "m.pi" plain1 false KInline;  (* 39 *)
  En "m.e" plain1 false KInline;  (* 49 *)
  En "m.abs" wild1 true KMethod;  (* 63 *)
  En "m.acos" plain1 false KMethod;  (* 71 *)
  En "m.asin" plain1 false KMethod;  (* 82 *)
  En "m.atan" plain1 false KInline;  (* 93 *)
  En "m.atan2" plain1 false KInline;  (* 103 *)
  En "m.ceil" plain1 false KMethod;  (* 113 *)
  En "m.copysign" wild1 false KMethod;  (* 126 *)
  En "m.cos" plain1 false KMethod;  (* 134 *)
  En "m.cosh" plain1 false KInline;  (* 145 *)
  En "m.exp" plain1 false KInline;  (* 155 *)
  En "m.expm1" plain1 false KInline;  (* 165 *)
  En "m.floor" plain1 false KMethod;  (* 175 *)
  En "m.hypot" plain1 false KMethod;  (* 188 *)
  En "m.ln" plain1 false KMethod;  (* 199 *)
  En "m.log10" plain1 false KMethod;  (* 212 *)
  En "m.log" plain1 false KMethod;  (* 225 *)
  En "m.ln1p" plain1 false KMethod;  (* 249 *)
  En "m.round" [(false, always); (false, always)] true KMethod;  (* 262 *)
  En "m.rint" plain1 false KMethod;  (* 276 *)
  En "m.signum" plain1 false KMethod;  (* 295 *)
  En "m.sin" plain1 false KMethod;  (* 310 *)
  En "m.sinh" plain1 false KInline;  (* 321 *)
  En "m.sqrt" plain1 false KMethod;  (* 331 *)
  En "m.tan" plain1 false KMethod;  (* 342 *)
  En "m.tanh" plain1 false KInline ].  (* 353 *)
(** lib/pfastring.py *)
Definition lib_pfastring : list entry := [
  En "s.len" plain1 false KInline;  (* 41 *)
  En "s.substr" plain1 false KMethod;  (* 51 *)
  En "s.substrto" plain1 false KMethod;  (* 59 *)
  En "s.contains" plain1 false KMethod;  (* 72 *)
  En "s.count" plain1 false KMethod;  (* 80 *)
  En "s.index" plain1 false KMethod;  (* 91 *)
  En "s.rindex" plain1 false KMethod;  (* 102 *)
  En "s.startswith" plain1 false KMethod;  (* 113 *)
  En "s.endswith" plain1 false KMethod;  (* 121 *)
  En "s.join" plain1 false KMethod;  (* 131 *)
  En "s.split" plain1 false KMethod;  (* 139 *)
  En "s.hex" [(false, always); (false, always)] false KMethod;  (* 150 *)
  En "s.int" [(false, always); (false, always)] false KMethod;  (* 184 *)
  En "s.number" [(false, ending); (false, ending); (false, always); (false, always)] true KMethod;  (* 213 *)
  En "s.concat" plain1 false KMethod;  (* 307 *)
  En "s.repeat" plain1 false KMethod;  (* 315 *)
  En "s.lower" plain1 false KMethod;  (* 323 *)
  En "s.upper" plain1 false KMethod;  (* 331 *)
  En "s.lstrip" plain1 false KMethod;  (* 339 *)
  En "s.rstrip" plain1 false KMethod;  (* 347 *)
  En "s.strip" plain1 false KMethod;  (* 355 *)
  En "s.replaceall" plain1 false KMethod;  (* 363 *)
  En "s.replacefirst" plain1 false KMethod;  (* 371 *)
  En "s.replacelast" plain1 false KMethod;  (* 382 *)
  En "s.translate" plain1 false KMethod ].  (* 395 *)
(** lib/pfatime.py *)
Definition lib_pfatime : list entry := [
  En "time.year" plain1 false KMethod;  (* 64 *)
  En "time.monthOfYear" plain1 false KMethod;  (* 72 *)
  En "time.dayOfYear" plain1 false KMethod;  (* 80 *)
  En "time.dayOfMonth" plain1 false KMethod;  (* 88 *)
  En "time.dayOfWeek" plain1 false KMethod;  (* 96 *)
  En "time.hourOfDay" plain1 false KMethod;  (* 104 *)
  En "time.minuteOfHour" plain1 false KMethod;  (* 112 *)
  En "time.secondOfMinute" plain1 false KMethod;  (* 120 *)
  En "time.makeTimestamp" plain1 false KMethod;  (* 128 *)
  En "time.isSecondOfMinute" plain1 false KMethod;  (* 148 *)
  En "time.isMinuteOfHour" plain1 false KMethod;  (* 159 *)
  En "time.isHourOfDay" plain1 false KMethod;  (* 170 *)
  En "time.isDayOfWeek" plain1 false KMethod;  (* 181 *)
  En "time.isDayOfMonth" plain1 false KMethod;  (* 192 *)
  En "time.isMonthOfYear" plain1 false KMethod;  (* 203 *)
  En "time.isDayOfYear" plain1 false KMethod;  (* 214 *)
  En "time.isWeekend" plain1 false KMethod;  (* 225 *)
  En "time.isWorkHours" plain1 false KMethod ].  (* 234 *)
(** lib/prob/dist.py *)
Definition lib_prob_dist : list entry := [
  En "prob.dist.gaussianLL" [(false, always); (true, always)] false KMethod;  (* 44 *)
  En "prob.dist.gaussianCDF" [(false, always); (true, always)] false KMethod;  (* 71 *)
  En "prob.dist.gaussianQF" [(false, always); (true, always)] false KMethod;  (* 99 *)
  En "prob.dist.exponentialPDF" plain1 false KMethod;  (* 128 *)
  En "prob.dist.exponentialCDF" plain1 false KMethod;  (* 147 *)
  En "prob.dist.exponentialQF" plain1 false KMethod;  (* 164 *)
  En "prob.dist.chi2PDF" plain1 false KMethod;  (* 186 *)
  En "prob.dist.chi2CDF" plain1 false KMethod;  (* 206 *)
  En "prob.dist.chi2QF" plain1 false KMethod;  (* 224 *)
  En "prob.dist.poissonPDF" plain1 false KMethod;  (* 244 *)
  En "prob.dist.poissonCDF" plain1 false KMethod;  (* 262 *)
  En "prob.dist.poissonQF" plain1 false KMethod;  (* 280 *)
  En "prob.dist.gammaPDF" plain1 false KMethod;  (* 300 *)
  En "prob.dist.gammaCDF" plain1 false KMethod;  (* 327 *)
  En "prob.dist.gammaQF" plain1 false KMethod;  (* 347 *)
  En "prob.dist.betaPDF" plain1 false KMethod;  (* 365 *)
  En "prob.dist.betaCDF" plain1 false KMethod;  (* 380 *)
  En "prob.dist.betaQF" plain1 false KMethod;  (* 397 *)
  En "prob.dist.cauchyPDF" plain1 false KMethod;  (* 415 *)
  En "prob.dist.cauchyCDF" plain1 false KMethod;  (* 428 *)
  En "prob.dist.cauchyQF" plain1 false KMethod;  (* 441 *)
  En "prob.dist.fPDF" plain1 false KMethod;  (* 459 *)
  En "prob.dist.fCDF" plain1 false KMethod;  (* 474 *)
  En "prob.dist.fQF" plain1 false KMethod;  (* 487 *)
  En "prob.dist.lognormalPDF" plain1 false KMethod;  (* 503 *)
  En "prob.dist.lognormalCDF" plain1 false KMethod;  (* 516 *)
  En "prob.dist.lognormalQF" plain1 false KMethod;  (* 529 *)
  En "prob.dist.tPDF" plain1 false KMethod;  (* 545 *)
  En "prob.dist.tCDF" plain1 false KMethod;  (* 558 *)
  En "prob.dist.tQF" plain1 false KMethod;  (* 571 *)
  En "prob.dist.binomialPDF" plain1 false KMethod;  (* 589 *)
  En "prob.dist.binomialCDF" plain1 false KMethod;  (* 606 *)
  En "prob.dist.binomialQF" plain1 false KMethod;  (* 630 *)
  En "prob.dist.uniformPDF" plain1 false KMethod;  (* 648 *)
  En "prob.dist.uniformCDF" plain1 false KMethod;  (* 660 *)
  En "prob.dist.uniformQF" plain1 false KMethod;  (* 672 *)
  En "prob.dist.geometricPDF" plain1 false KMethod;  (* 686 *)
  En "prob.dist.geometricCDF" plain1 false KMethod;  (* 699 *)
  En "prob.dist.geometricQF" plain1 false KMethod;  (* 712 *)
  En "prob.dist.hypergeometricPDF" plain1 false KMethod;  (* 728 *)
  En "prob.dist.hypergeometricCDF" plain1 false KMethod;  (* 743 *)
  En "prob.dist.hypergeometricQF" plain1 false KMethod;  (* 758 *)
  En "prob.dist.weibullPDF" plain1 false KMethod;  (* 772 *)
  En "prob.dist.weibullCDF" plain1 false KMethod;  (* 787 *)
  En "prob.dist.weibullQF" plain1 false KMethod;  (* 802 *)
  En "prob.dist.negativeBinomialPDF" plain1 false KMethod;  (* 816 *)
  En "prob.dist.negativeBinomialCDF" plain1 false KMethod;  (* 833 *)
  En "prob.dist.negativeBinomialQF" plain1 false KMethod ].  (* 852 *)
(** lib/rand.py *)
Definition lib_rand : list entry := [
  En "rand.int" [(false, always); (false, always)] false KMethod;  (* 42 *)
  En "rand.long" [(false, always); (false, always)] false KMethod;  (* 55 *)
  En "rand.float" plain1 false KMethod;  (* 68 *)
  En "rand.double" plain1 false KMethod;  (* 77 *)
  En "rand.choice" wild1 false KMethod;  (* 88 *)
  En "rand.choices" wild1 false KMethod;  (* 98 *)
  En "rand.sample" wild1 false KMethod;  (* 108 *)
  En "rand.histogram" [(false, always); (true, always)] true KMethod;  (* 122 *)
  En "rand.string" [(false, always); (false, always); (false, always)] false KMethod;  (* 153 *)
  En "rand.bytes" [(false, always); (false, always); (false, always)] false KMethod;  (* 174 *)
  En "rand.uuid" [(false, ending)] false KMethod;  (* 199 *)
  En "rand.uuid4" plain1 false KMethod;  (* 207 *)
  En "rand.gaussian" plain1 false KMethod ].  (* 217 *)
(** lib/regex.py *)
Definition lib_regex : list entry := [
  En "re.index" [(false, always); (false, always)] true KMethod;  (* 198 *)
  En "re.contains" [(false, always); (false, always)] true KMethod;  (* 216 *)
  En "re.count" [(false, always); (false, always)] true KMethod;  (* 230 *)
  En "re.rindex" [(false, always); (false, always)] true KMethod;  (* 252 *)
  En "re.groups" [(false, always); (false, always)] true KMethod;  (* 276 *)
  En "re.indexall" [(false, always); (false, always)] true KMethod;  (* 298 *)
  En "re.findall" [(false, always); (false, always)] true KMethod;  (* 323 *)
  En "re.findfirst" [(false, always); (false, always)] true KMethod;  (* 348 *)
  En "re.findgroupsfirst" [(false, always); (false, always)] true KMethod;  (* 370 *)
  En "re.findgroupsall" [(false, always); (false, always)] true KMethod;  (* 392 *)
  En "re.groupsall" [(false, always); (false, always)] true KMethod;  (* 420 *)
  En "re.replacefirst" [(false, always); (false, always)] true KMethod;  (* 448 *)
  En "re.replacelast" [(false, always); (false, always)] true KMethod;  (* 469 *)
  En "re.split" [(false, always); (false, always)] true KMethod;  (* 495 *)
  En "re.replaceall" [(false, always); (false, always)] true KMethod ].  (* 531 *)
(** lib/spec.py *)
Definition lib_spec : list entry := [
  En "m.special.nChooseK" plain1 false KMethod;  (* 35 *)
  En "m.special.lnBeta" plain1 false KMethod;  (* 47 *)
  En "m.special.erf" plain1 false KMethod;  (* 58 *)
  En "m.special.erfc" plain1 false KMethod;  (* 69 *)
  En "m.special.lnGamma" plain1 false KMethod ].  (* 80 *)
(** lib/stat/change.py *)
Definition lib_stat_change : list entry := [
  En "stat.change.updateTrigger" wild1 false KMethod;  (* 37 *)
  En "stat.change.zValue" [(true, always); (true, always)] false KMethod;  (* 63 *)
  En "stat.change.updateCUSUM" plain1 false KMethod ].  (* 91 *)
(** lib/stat/pfatest.py *)
Definition lib_stat_pfatest : list entry := [
  En "stat.test.kolmogorov" plain1 false KMethod;  (* 43 *)
  En "stat.test.residual" [(false, always); (false, always); (false, always)] false KMethod;  (* 86 *)
  En "stat.test.pull" [(false, always); (false, always); (false, always)] false KMethod;  (* 108 *)
  En "stat.test.mahalanobis" [(false, always); (false, always)] false KMethod;  (* 134 *)
  En "stat.test.updateChi2" [(true, always); (true, always); (true, always)] false KMethod;  (* 177 *)
  En "stat.test.reducedChi2" wild1 false KMethod;  (* 192 *)
  En "stat.test.chi2Prob" wild1 false KMethod ].  (* 200 *)
(** lib/stat/sample.py *)
Definition lib_stat_sample : list entry := [
  En "stat.sample.update" wild1 false KExtra;  (* 65 *)
  En "stat.sample.updateCovariance" [(true, always); (true, always)] true KMethod;  (* 96 *)
  En "stat.sample.updateWindow" wild1 true KExtra;  (* 172 *)
  En "stat.sample.updateEWMA" wild1 false KExtra;  (* 267 *)
  En "stat.sample.updateHoltWinters" wild1 false KMethod;  (* 304 *)
  En "stat.sample.updateHoltWintersPeriodic" wild1 false KMethod;  (* 320 *)
  En "stat.sample.forecast1HoltWinters" wild1 false KExtra;  (* 353 *)
  En "stat.sample.forecastHoltWinters" wild1 false KExtra;  (* 395 *)
  En "stat.sample.fillHistogram" [(true, always); (true, always); (true, always)] false KExtra;  (* 437 *)
  En "stat.sample.fillHistogram2d" wild1 false KExtra;  (* 604 *)
  En "stat.sample.fillCounter" wild1 false KMethod;  (* 715 *)
  En "stat.sample.topN" wild1 false KMethod ].  (* 726 *)
Definition library : list entry :=
  lib_array ++ lib_bytes ++ lib_cast ++ lib_core ++ lib_enum ++ lib_fixed ++ lib_impute ++ lib_interp ++ lib_kernel ++ lib_la ++ lib_link ++ lib_map ++ lib_metric ++ lib_model_cluster ++ lib_model_naive ++ lib_model_neighbor ++ lib_model_neural ++ lib_model_reg ++ lib_model_svm ++ lib_model_tree ++ lib_parse ++ lib_pfamath ++ lib_pfastring ++ lib_pfatime ++ lib_prob_dist ++ lib_rand ++ lib_regex ++ lib_spec ++ lib_stat_change ++ lib_stat_pfatest ++ lib_stat_sample.

{"id": "C01", "title": "A failed action rolls back cells and pools marked rollback", "statement": "If engine.action raises, every cell and every pool declared with rollback=true holds afterwards exactly the value it held just before that call (for pools: the same set of keys with the same items), while cells and pools without rollback keep whatever partial changes were made before the exception. If engine.action returns, all changes made during the call are kept.", "quantifier": "all documents, all sequences of calls to action, all inputs and all points at which an exception can be raised inside an action", "why_tests_cant": "an exception may strike after any prefix of the state updates and after any history of earlier calls; tests sample a few prefixes", "anchors": ["titus/genpy.py: PFAEngine.action / actionEngine wrapper, Cell.maybeSaveBackup, Cell.maybeRestoreBackup, Pool.maybeSaveBackup, Pool.maybeRestoreBackup"]}
{"id": "C02", "title": "actionsStarted and actionsFinished count calls exactly", "statement": "After any history of calls, actionsStarted equals the number of calls of action whose input had the declared type (an input rejected by the input check raises before being counted and changes nothing) and actionsFinished the number of calls that returned normally; so 0 <= finished <= started and the difference is the number of failed actions.", "quantifier": "all histories of successful and failing action calls", "why_tests_cant": "must hold after every history", "anchors": ["titus/genpy.py: PFAEngine.action wrapper (actionsStarted, actionsFinished)"]}
{"id": "C03", "title": "Shared and rollback are mutually exclusive", "statement": "No engine ever runs with a cell or pool that is both shared between instances and rolled back: the document is rejected, so a rollback can never overwrite an update committed by another engine instance.", "quantifier": "all documents", "why_tests_cant": "would need every document", "anchors": ["titus/pfaast.py: Cell._init, Pool._init"]}
{"id": "C04", "title": "Concurrent updates of a shared cell are not lost", "statement": "When any number of engine instances concurrently update a shared cell through a function, and no update function raises, the final value is the result of applying all the updates one after another in some order (the order in which the lock was taken); no update is lost.", "quantifier": "all numbers of threads, all programs of updates, all schedules", "why_tests_cant": "depends on the interleaving", "anchors": ["titus/genpy.py: Cell.update, GeneratePython cellTo"]}
{"id": "C05", "title": "A failed update of a shared cell does not block other instances", "statement": "If an update function on a shared cell or pool item raises, the lock is released so that later updates (by the same or other instances) can proceed.", "quantifier": "all schedules in which some update raises", "why_tests_cant": "a deadlock shows only on a particular crash point followed by another update", "anchors": ["titus/genpy.py: Cell.update, Pool.update"]}
{"id": "C06", "title": "Path update laws", "statement": "Updating a value at a path (attr-to, cell-to, pool-to with a path) with a new value returns a structure in which reading that path yields the new value and reading any path that diverges from it yields what it yielded before; the original value is unchanged.", "quantifier": "all nested values, all paths, all new values", "why_tests_cant": "all nested structures of any depth", "anchors": ["titus/genpy.py: get, update"]}
{"id": "C07", "title": "Updating a path that does not exist is reported", "statement": "An update along a path which is not present in the value (array index out of range, missing map key) raises 'array index not found' / 'map key not found', just as reading it does.", "quantifier": "all values and paths", "why_tests_cant": "the missing element may be at any depth of the path", "anchors": ["titus/genpy.py: get, update"]}
{"id": "C08", "title": "Lexical scoping of variables", "statement": "Variables declared with let in an inner scope (if/cond/while/for/foreach body, user function call) are invisible outside and never change an outer variable of the same name; set of a single variable changes exactly the innermost visible variable of that name; nothing else.", "quantifier": "all nestings of scopes and all sequences of let/set operations", "why_tests_cant": "any nesting and history", "anchors": ["titus/util.py: DynamicScope", "titus/genpy.py: let, set"]}
{"id": "C09", "title": "Setting several variables at once", "statement": "A set expression naming several variables assigns each of them in the innermost scope where it is defined, as if each had been set separately.", "quantifier": "all scopes and all sets of assigned names", "why_tests_cant": "combination of names from different depths", "anchors": ["titus/util.py: DynamicScope.set", "titus/pfaast.py: SetVar.walk"]}
{"id": "C10", "title": "Type acceptance is a preorder", "statement": "Every type accepts itself, and acceptance is transitive: if A accepts B and B accepts C then A accepts C.", "quantifier": "all Avro types of any depth, including named types and unions", "why_tests_cant": "types are unbounded trees", "anchors": ["titus/datatype.py: accepts methods of AvroType subclasses"]}
{"id": "C11", "title": "Acceptance is sound for values", "statement": "If type A accepts type B, then every value which is valid for B is valid for A once numbers are promoted: no branch of acceptance lets in a value that A cannot hold.", "quantifier": "all types and all values", "why_tests_cant": "unbounded trees", "anchors": ["titus/datatype.py: accepts methods"]}
{"id": "C12", "title": "The type of a conditional accepts every branch", "statement": "The broadest type computed for the branches of if/cond/ifnotnull/unpack/try (and array/map literals through wildcards) accepts the type of every branch, or type checking fails.", "quantifier": "all non-empty lists of types", "why_tests_cant": "unbounded lists of unbounded types", "anchors": ["titus/signature.py: LabelData.broadestType, LabelData.distinctTypes"]}
{"id": "C13", "title": "Library calls dispatch to a signature that accepts the arguments", "statement": "When a call type checks, the chosen signature is the first in declaration order that matches, each of the types assigned to its parameters accepts the type of the corresponding argument, and no signature declared earlier matches.", "quantifier": "all signatures and all argument types", "why_tests_cant": "unbounded types", "anchors": ["titus/signature.py: Sigs.accepts, Sig.accepts, Sig.check, Sig.assign"]}
{"id": "C14", "title": "Function lifespans partition versions", "statement": "For every PFA version a function with a lifespan is exactly one of: not yet existing, current, deprecated, removed; version comparison is a total order agreeing with major/minor/release lexicographic order.", "quantifier": "all versions and all lifespans", "why_tests_cant": "infinitely many versions", "anchors": ["titus/signature.py: PFAVersion, Lifespan"]}
{"id": "C15", "title": "JSON encode/decode round trip", "statement": "For each datum produced by decoding JSON with a schema, encoding it back and decoding again yields the same datum; in particular the declared branch of a tagged union value is preserved.", "quantifier": "all schemas and all JSON documents that decode", "why_tests_cant": "unbounded trees", "anchors": ["titus/datatype.py: jsonDecoder, jsonEncoder"]}
{"id": "C16", "title": "Input checking is idempotent and produces schema-valid data", "statement": "checkData either raises or returns a datum that is valid for the schema, and applying checkData again to the result returns it unchanged; untagged strings in a union are kept as strings.", "quantifier": "all schemas and all input data", "why_tests_cant": "unbounded trees", "anchors": ["titus/datatype.py: checkData"]}
{"id": "C17", "title": "Value comparison is a total preorder", "statement": "For each schema the comparison used by ==, <, sort, min and max is reflexive (0 on equal values), antisymmetric in sign and transitive on the values of the schema, with NaN ordered after every other number.", "quantifier": "all schemas, all triples of values", "why_tests_cant": "unbounded trees, every triple", "anchors": ["titus/datatype.py: compare"]}
{"id": "C18", "title": "a.sort and a.sortLT sort", "statement": "The result of sorting is a permutation of the input, ordered by the comparison, and stable.", "quantifier": "all arrays and comparison orders", "why_tests_cant": "all arrays", "anchors": ["titus/lib/array.py: Sort, SortLT"]}
{"id": "C19", "title": "Top-n selection equals sorting", "statement": "a.maxN/a.minN and a.argmaxN/a.argminN (and the LT variants taking a comparison function) return exactly the first n elements (indices) of the stably sorted array, ties resolved in favour of the earlier index; stat.sample.topN maintains the n best of everything seen so far.", "quantifier": "all arrays, all n, all strict weak orders; all input histories for topN", "why_tests_cant": "all arrays and histories", "anchors": ["titus/lib/array.py: highestN, lowestN, argHighestN, argLowestN", "titus/lib/stat/sample.py: TopN"]}
{"id": "C20", "title": "min, max, argmin, argmax", "statement": "max/min over an array return an element of it that no other element exceeds; argmax/argmin return the first index of such an element; empty arrays are reported.", "quantifier": "all arrays, all total preorders", "why_tests_cant": "all arrays", "anchors": ["titus/lib/array.py: Max, Min, Argmax, Argmin"]}
{"id": "C21", "title": "Integer arithmetic is exact or reports overflow", "statement": "int and long addition, subtraction, multiplication, negation, absolute value, sums and products either return the mathematically exact result, which lies in the range of the type, or raise overflow.", "quantifier": "all int/long operands; all arrays for sums", "why_tests_cant": "2^128 operand pairs, arrays of any length", "anchors": ["titus/lib/core.py: checkForOverflow, Plus, Minus, Times, Negative", "titus/lib/pfamath.py: Abs", "titus/lib/array.py: Sum, Product"]}
{"id": "C22", "title": "Integer division and remainder identities", "statement": "For int/long x and non-zero y: (x // y) * y + (x %% y) = x with the remainder taking the sign of x, and x % y lies between 0 and y with the sign of y and is congruent to x; the quotient is in range or overflow is reported.", "quantifier": "all int/long operands", "why_tests_cant": "2^128 operand pairs", "anchors": ["titus/lib/core.py: DivideInteger? ('//'), Modulo ('%'), Remainder ('%%')"]}
{"id": "C23", "title": "Bitwise operators act on two's complement and stay in range", "statement": "~, &, |, ^ applied to int/long values return values of the same type that equal the two's complement operation on 32/64 bits.", "quantifier": "all int/long operands", "why_tests_cant": "2^128 operand pairs", "anchors": ["titus/lib/core.py: BitwiseAnd, BitwiseOr, BitwiseXOr, BitwiseNot"]}
{"id": "C24", "title": "Three-valued logic", "statement": "&&&, |||, !!! on boolean-or-null arguments implement Kleene logic (commutative, associative, De Morgan) and agree with &&, ||, ! on booleans; && and || evaluate their right operand only when needed.", "quantifier": "all operands; all side effects of operands", "why_tests_cant": "side effects of arbitrary right operands", "anchors": ["titus/lib/core.py: KleeneAnd, KleeneOr, KleeneNot, LogicalAnd, LogicalOr"]}
{"id": "C25", "title": "cast.signed / cast.unsigned truncate to the requested number of bits", "statement": "cast.unsigned(x, bits) is x modulo 2^bits and cast.signed(x, bits) is the two's complement value of the low bits of x, for every bit width the function admits; other widths are reported.", "quantifier": "all long x and all bit counts", "why_tests_cant": "2^64 x 64 inputs", "anchors": ["titus/lib/cast.py: ToSigned, ToUnsigned"]}
{"id": "C26", "title": "Fan-out encodings are one-hot", "statement": "cast.fanoutBoolean/Int/Long/Float/Double of a value against a dictionary or range yields an array of the right length with exactly one hot position, that of the matching entry, or none when there is no match (with outOfRange: an extra final position hot exactly when there is no match).", "quantifier": "all dictionaries, ranges and values", "why_tests_cant": "all dictionaries", "anchors": ["titus/lib/cast.py: fanout functions"]}
{"id": "C27", "title": "Python-style slices", "statement": "a.subseq/s.substr with any (possibly negative or out of range) start and end return the elements whose positions lie in the clamped interval, a.subseqto/s.substrto replace exactly that interval, and splitting at any index and concatenating restores the array.", "quantifier": "all arrays/strings and all indices", "why_tests_cant": "all arrays and indices", "anchors": ["titus/util.py: startEnd, negativeIndex", "titus/lib/array.py: Subseq, SubseqTo, Head, Tail, Last, Init"]}
{"id": "C28", "title": "Arrays as sets", "statement": "a.distinct, a.seteq, a.union, a.intersection, a.diff, a.symdiff, a.subset, a.disjoint behave like the corresponding set operations on the set of elements, and results documented as sets have no duplicates.", "quantifier": "all arrays", "why_tests_cant": "all arrays", "anchors": ["titus/lib/array.py: Distinct, SetEq, Union, Intersection, Diff, SymDiff, Subset, Disjoint"]}
{"id": "C29", "title": "String splitting and joining", "statement": "s.join(s.split(x, sep), sep) = x for non-empty separators; s.contains/s.count/s.index agree with the existence, number and first position of occurrences; s.replaceall leaves no unreplaced non-overlapping occurrence.", "quantifier": "all strings and separators", "why_tests_cant": "all strings", "anchors": ["titus/lib/pfastring.py"]}
{"id": "C30", "title": "Map library laws", "statement": "map.add, map.remove, map.only, map.except, map.update, map.split, map.join, map.filter, map.zipmap behave like finite map operations independent of the internal order of keys.", "quantifier": "all maps, all orders of insertion", "why_tests_cant": "all maps and insertion histories", "anchors": ["titus/lib/map.py"]}
{"id": "C31", "title": "Map results do not depend on insertion order", "statement": "map.argmax/argmin/argHighestN and other map selections give the same result for equal maps irrespective of the order in which their keys were inserted.", "quantifier": "all maps and permutations of their entries", "why_tests_cant": "all permutations", "anchors": ["titus/lib/map.py: Argmax, ArgHighestN, ZipMap"]}
{"id": "C32", "title": "pack and unpack are inverse", "statement": "Unpacking the bytes produced by pack with the same format yields the packed values, and consumes all bytes.", "quantifier": "all format lists and all values in range for them", "why_tests_cant": "all formats and values", "anchors": ["titus/genpy.py: pack, unpack", "titus/pfaast.py: BinaryFormatter"]}
{"id": "C33", "title": "Binary format names denote the sizes they say", "statement": "Each accepted spelling of a binary format (int8, int16, int32, int64, unsigned int64, float32, float64, ...) encodes to the number of bytes in its name.", "quantifier": "all format strings", "why_tests_cant": "infinitely many spellings", "anchors": ["titus/pfaast.py: BinaryFormatter.formatToDeclare"]}
{"id": "C34", "title": "calledBy computes exactly the transitive callers", "statement": "engine.calledBy(f) is exactly the set of functions reachable from f through direct calls; it terminates on every call graph including cyclic ones.", "quantifier": "all call graphs", "why_tests_cant": "all graphs", "anchors": ["titus/genpy.py: PFAEngine.calledBy"]}
{"id": "C35", "title": "callDepth and isRecursive", "statement": "isRecursive(f) holds exactly when f can reach itself through calls; callDepth(f) is the length of the longest call chain from f, infinite exactly when a cycle is reachable.", "quantifier": "all call graphs", "why_tests_cant": "all graphs", "anchors": ["titus/genpy.py: PFAEngine.callDepth, isRecursive"]}
{"id": "C36", "title": "The static call graph is complete", "statement": "Every function that evaluation of an expression can call is listed in the static call graph entry of the enclosing function.", "quantifier": "all expressions and executions", "why_tests_cant": "all expressions of any depth", "anchors": ["titus/pfaast.py: AttrGet.walk, AttrTo.walk, PoolTo.walk and the other walk methods"]}
{"id": "C37", "title": "Documents that could self-deadlock are rejected", "statement": "If the function given to cell-to or pool-to can, directly or through any chain of calls, update a cell or pool itself, then loading the document raises an initialization error, so an accepted document never tries to take a lock it holds.", "quantifier": "all documents and call chains", "why_tests_cant": "call chains of any length", "anchors": ["titus/genpy.py: PFAEngine.checkForDeadlock, hasSideEffects"]}
{"id": "C38", "title": "Time limits apply per method", "statement": "A configured time limit for begin, action or end is the one applied when that method runs; a method whose limit is exceeded raises a timeout.", "quantifier": "all option settings and all durations", "why_tests_cant": "all settings", "anchors": ["titus/options.py: EngineOptions", "titus/genpy.py: ExecutionState.checkTime"]}
{"id": "C39", "title": "try/catch filters", "statement": "try returns the body's value if it does not raise; if it raises a runtime or user exception matching the filter (by message or code) or when no filter is given, try returns null; otherwise the exception propagates unchanged.", "quantifier": "all bodies and filters", "why_tests_cant": "all exceptions and filters", "anchors": ["titus/genpy.py: tryCatch", "titus/pfaast.py: Try"]}
{"id": "C40", "title": "cast selects the first matching case", "statement": "A cast block evaluates the body of the first case whose type accepts the runtime type of the value, with the variable bound to the value, and a non-partial cast block always has a matching case.", "quantifier": "all values and case lists", "why_tests_cant": "all types and values", "anchors": ["titus/genpy.py: cast", "titus/pfaast.py: CastBlock"]}
{"id": "C41", "title": "Loops visit every element once, in order", "statement": "foreach visits each array element exactly once in order, forkeyval visits each entry once, for/while stop the first time the condition is false.", "quantifier": "all arrays, maps and bodies", "why_tests_cant": "all arrays", "anchors": ["titus/genpy.py: foreach, forkeyval, for, while"]}
{"id": "C42", "title": "Fold engines compute the left fold; merge of partial tallies", "statement": "A fold engine fed any sequence of inputs returns at each call the left fold of the action over all the inputs so far, starting at zero; inputs whose action failed leave the tally unchanged.", "quantifier": "all input histories", "why_tests_cant": "all histories", "anchors": ["titus/genpy.py: PFAFoldEngine.action"]}
{"id": "C43", "title": "Type declarations resolve independently of order", "statement": "Parsing a set of named type declarations succeeds or fails, and assigns the same types, irrespective of the order in which the declarations appear; it always terminates.", "quantifier": "all sets of declarations, all orders", "why_tests_cant": "all permutations", "anchors": ["titus/datatype.py: ForwardDeclarationParser.parse"]}
{"id": "C44", "title": "Tree traversal reaches all nodes", "statement": "collect and replace on an engine configuration visit every expression of the document.", "quantifier": "all documents", "why_tests_cant": "all documents", "anchors": ["titus/pfaast.py: EngineConfig.collect, EngineConfig.replace"]}
{"id": "C45", "title": "AST/JSON round trip", "statement": "Reading the JSON that the AST of an expression prints yields the same AST, whether that AST was read from a document or built by hand.", "quantifier": "all expressions", "why_tests_cant": "unbounded trees", "anchors": ["titus/pfaast.py: jsonNode methods", "titus/reader.py: _readArgument"]}
{"id": "C46", "title": "Malformed documents are reported as PFA errors", "statement": "Whatever JSON is given, the reader either returns an AST or raises PFASyntaxException; no other exception escapes. The AST it returns is well-formed: names are identifiers, blocks that need an expression have one, error codes are negative, and a fold engine alone has a zero and a merge.", "quantifier": "all JSON documents", "why_tests_cant": "all JSON documents", "anchors": ["titus/reader.py"]}
{"id": "C47", "title": "Trigger counters", "statement": "After any history of stat.change.updateTrigger, numEvents is the number of updates whose predicate was true, numRuns the number of maximal runs of true, currentRun the length of the run in progress and longestRun the length of the longest run so far.", "quantifier": "all histories of predicate values", "why_tests_cant": "all histories", "anchors": ["titus/lib/stat/change.py: UpdateTrigger"]}
{"id": "C48", "title": "Tree scoring follows the unique path", "statement": "model.tree.simpleWalk returns the leaf reached by following, at each node, the branch selected by the predicate, and terminates on every finite tree.", "quantifier": "all trees, data and predicates", "why_tests_cant": "unbounded trees", "anchors": ["titus/lib/model/tree.py: SimpleWalk, SimpleTree, MissingWalk"]}
{"id": "C49", "title": "Clustering and nearest neighbours", "statement": "model.cluster.closest returns a cluster at minimal distance (the first such), closestN the N nearest in order, model.neighbor.nearestK the k nearest; kmeansIteration assigns each datum to exactly one cluster.", "quantifier": "all data sets and metrics", "why_tests_cant": "all data sets", "anchors": ["titus/lib/model/cluster.py: Closest, ClosestN, KMeansIteration", "titus/lib/model/neighbor.py: NearestK, BallR"]}
{"id": "C50", "title": "interp.bin returns a bin index in range containing the point", "statement": "interp.bin either raises or returns an index in [0, numbins) such that x lies in that bin.", "quantifier": "all parameters", "why_tests_cant": "all reals", "anchors": ["titus/lib/interp.py: Bin"]}
{"id": "C51", "title": "Running mean and variance equal the batch values", "statement": "After any sequence of weighted updates, stat.sample.update's count, mean and variance equal (in exact arithmetic) the weighted count, mean and variance of all data seen.", "quantifier": "all histories of weighted data with positive partial sums of weights", "why_tests_cant": "all histories", "anchors": ["titus/lib/stat/sample.py: Update, UpdateWindow"]}
{"id": "C52", "title": "Sliding windows hold the last windowSize items", "statement": "After any sequence of stat.sample.updateWindow calls, the state holds the last min(n, windowSize) data in order and its last record's statistics are those of exactly these data.", "quantifier": "all histories and window sizes", "why_tests_cant": "all histories", "anchors": ["titus/lib/stat/sample.py: UpdateWindow"]}
{"id": "C53", "title": "Histograms conserve weight", "statement": "Every fill adds the weight to exactly one bin or flow counter, so the total of bins and flows grows by exactly the weight; counters grow by exactly the weight in one key.", "quantifier": "all histograms, values and histories", "why_tests_cant": "all histories", "anchors": ["titus/lib/stat/sample.py: FillHistogram, FillCounter"]}
{"id": "C54", "title": "time.isWorkHours excludes weekends", "statement": "time.isWorkHours is true exactly between 9:00 and 17:00 on Monday to Friday; time.isWeekend exactly on Saturday and Sunday; the two are never both true.", "quantifier": "all timestamps and time zones", "why_tests_cant": "all timestamps", "anchors": ["titus/lib/pfatime.py: IsWorkHours, IsWeekend"]}
{"id": "C55", "title": "Random draws stay in their documented range", "statement": "rand.int/long(low, high) lie in [low, high); rand.choice/choices/sample return elements of the population (sample without replacement); rand.histogram returns an index with positive weight; generated strings contain only valid characters.", "quantifier": "all arguments and all random streams", "why_tests_cant": "all random streams", "anchors": ["titus/lib/rand.py"]}
{"id": "C56", "title": "Matrix laws", "statement": "la.transpose is an involution swapping indices, la.add/la.sub are element-wise, la.scale distributes; misaligned or ragged arguments are reported.", "quantifier": "all matrices", "why_tests_cant": "all sizes", "anchors": ["titus/lib/la.py: Transpose, Add, Sub, Scale, Trace"]}
{"id": "C57", "title": "Binary similarity counts", "statement": "The four pair counts used by the binary metrics partition the positions, simpleMatching/jaccard/tanimoto are symmetric, and equal inputs score 1.", "quantifier": "all boolean arrays", "why_tests_cant": "all arrays", "anchors": ["titus/lib/metric.py: BinaryMetric"]}
{"id": "C58", "title": "snapshot captures the state", "statement": "Reloading a document from engine.snapshot() restores every cell and pool item to its current value.", "quantifier": "all engine states", "why_tests_cant": "all states", "anchors": ["titus/genpy.py: PFAEngine.snapshot"]}
{"id": "C59", "title": "Well-scoped documents never hit an unknown symbol at run time", "statement": "If the static symbol table accepts an expression, evaluating it never fails with an unknown variable.", "quantifier": "all expressions and executions", "why_tests_cant": "all expressions", "anchors": ["titus/pfaast.py: SymbolTable, Ref.walk, Let.walk, SetVar.walk", "titus/util.py: DynamicScope"]}
{"id": "C60", "title": "Higher-order array functions", "statement": "a.map, a.filter, a.filterMap, a.flatMap, a.zipmap, a.reduce(Right), a.fold(Right), a.takeWhile, a.dropWhile, a.any, a.all, a.corresponds and their WithIndex variants call the function once per needed element, from left to right (right to left for the Right variants), stop at the first failing call and otherwise return the list-algebra result; a.groupby keeps each element exactly once, in order; a.slidingWindow, a.permutations and a.combinations enumerate exactly the windows, permutations and combinations.", "quantifier": "all arrays, all functions (including ones with side effects and ones that raise)", "why_tests_cant": "all arrays", "anchors": ["titus/lib/array.py"]}
{"id": "C61", "title": "m.copysign stays in range or reports overflow", "statement": "m.copysign on int/long returns the magnitude of the first argument with the sign of the second, in the range of the type, or raises overflow.", "quantifier": "all int/long operands", "why_tests_cant": "the failing operand is a single boundary value out of 2^32/2^64", "anchors": ["titus/lib/pfamath.py: CopySign"]}
{"id": "C62", "title": "Integer powers are exact or report overflow", "statement": "** on int/long operands with non-negative exponent returns the exact power when it fits the type and raises overflow otherwise.", "quantifier": "all int/long operands", "why_tests_cant": "exactness fails only for results above 2^53 that are not representable as doubles; needs reasoning about the whole range", "anchors": ["titus/lib/core.py: Pow", "titus/lib/core.py: powLikeJava"]}
{"id": "C63", "title": "A function passed by reference behaves as when called directly", "statement": "Passing a function by reference ({\"fcn\": \"s.len\"}, {\"fcn\": \"u.f\"} and so on, where the function has exactly one signature without type variables) to a higher-order function gives the same results, element by element, as a function that only calls it directly.", "quantifier": "all functions accepted as references and all arguments", "why_tests_cant": "There are hundreds of library functions and as many receiving functions; only a uniform argument shows that the way references are called supplies everything a library function needs.", "anchors": ["titus/util.py: callfcn", "titus/genpy.py: FcnRef handling", "titus/lib/core.py"]}
{"id": "C64", "title": "Searching arrays", "statement": "a.contains, a.count, a.index, a.rindex, a.startswith and a.endswith agree with the definition of occurrence: contains is true iff there is an occurrence, index/rindex return the first/last position or -1, count returns the number of (possibly overlapping) occurrences.", "quantifier": "all haystacks and needles, both single items (of any type) and contiguous subsequences", "why_tests_cant": "The positions range over all array lengths and the needle can be of any type, including an array.", "anchors": ["titus/lib/array.py: Contains, Count, Index, RIndex, StartsWith, EndsWith"]}
{"id": "C65", "title": "Concurrent updates of a shared pool item are not lost", "statement": "When any number of engine instances concurrently update the same item of a shared pool, and no update function raises, the item ends up with the result of applying all updates one after the other, the first one starting from its init when the item did not exist; deleting items at the same time does not make updates fail.", "quantifier": "all numbers of threads, programs, pools, items and schedules", "why_tests_cant": "a lost update shows only under particular interleavings of the check for the item, its initialization and the update", "anchors": ["titus/genpy.py: Pool.update, pooldel"]}
{"id": "C66", "title": "Number casts round to the nearest integer and report what does not fit", "statement": "cast.int and cast.long return an integer argument unchanged if it fits the type and raise 'int overflow' / 'long overflow' otherwise; a float is rounded to the nearest integer, halves up, and NaN, infinities and results out of range are reported; cast.float and cast.double give the float nearest to an integer.", "quantifier": "all integers and all floats", "why_tests_cant": "the interesting inputs are single points among 2^64 floats (0.49999999999999994, 2^52 + 1)", "anchors": ["titus/lib/cast.py: ToInt, ToLong, ToFloat, ToDouble"]}
{"id": "C67", "title": "Running covariance equals the batch covariance", "statement": "After any non-empty history of stat.sample.updateCovariance calls on vectors of one length n >= 2 with weights whose partial sums are not zero, starting from count 0, count, mean and covariance equal the weighted batch values of the whole history (exact arithmetic); vectors of fewer than two components or of the wrong length are refused.", "quantifier": "all histories, vectors and weights", "why_tests_cant": "induction over histories of any length and dimension", "anchors": ["titus/lib/stat/sample.py:96-170"]}
{"id": "C68", "title": "Exponentially weighted mean and variance", "statement": "stat.sample.updateEWMA gives each datum the weight alpha*(1-alpha)^age, for mean and variance, so that the mean never leaves the interval spanned by data and initial mean; alpha outside [0,1] is refused.", "quantifier": "all alphas and histories", "why_tests_cant": "unbounded histories", "anchors": ["titus/lib/stat/sample.py:267-302"]}
{"id": "C69", "title": "CUSUM is the best suffix sum", "statement": "Starting at the reset value, the value of stat.change.updateCUSUM after any history is reset plus the largest sum of a (possibly empty) suffix of the history.", "quantifier": "all histories", "why_tests_cant": "unbounded histories", "anchors": ["titus/lib/stat/change.py:91-101"]}
{"id": "C70", "title": "Running counter and running top-n equal their batch values", "statement": "After any history, stat.sample.fillCounter holds for each key the sum of the weights given with it, and stat.sample.topN holds the n best data of the history, best first and earlier data first among equals.", "quantifier": "all histories, all weak orders", "why_tests_cant": "unbounded histories, arbitrary orders", "anchors": ["titus/lib/stat/sample.py:715-746"]}
{"id": "C73", "title": "Tree predicates mean what their operators say", "statement": "model.tree.simpleTest/missingTest: the six comparison operators agree with one order of the values (exactly one of <, ==, > for comparable values), in and notIn are opposites and mean membership, a missing value gives null in missingTest, an unknown operator is an error; compoundTest is and/or/xor with short circuit; surrogateTest gives the first answer that is not null.", "quantifier": "all field types, values, operators and user predicates", "why_tests_cant": "predicates are user functions with effects; all values", "anchors": ["titus/lib/model/tree.py: simpleComparison, CompoundTest, MissingTest, SurrogateTest"]}
{"id": "C72", "title": "Calendar fields and makeTimestamp are inverse and follow the Gregorian calendar", "statement": "time.year ... time.secondOfMinute give, for every accepted timestamp and zone, the date and clock reading that the Gregorian calendar assigns to that moment (counting days from Thursday 1970-01-01); time.makeTimestamp of a valid date and time gives the timestamp with those readings, and rejects impossible dates; the is...Of... tests are half-open intervals on those readings; nan, out-of-range timestamps, unknown zones and empty intervals are the documented errors.", "quantifier": "all timestamps, zones, dates and intervals", "why_tests_cant": "the calendar has 146097 different days in a cycle, and zones are arbitrary", "anchors": ["titus/lib/pfatime.py"]}
{"id": "C74", "title": "Interpolation tables", "statement": "interp.linear passes through the points of the table and is the straight line between neighbouring points; interp.linearFlat and interp.linearMissing agree with it inside the table, and outside give the nearest value or null; vector tables are interpolated coordinate by coordinate; interp.nearest returns the value of the first entry at the smallest distance. Too small tables and inconsistent dimensions are the documented errors.", "quantifier": "all tables (in any order, with repeated points), all x, all metrics", "why_tests_cant": "all tables and points; ties and order of entries", "anchors": ["titus/lib/interp.py: Nearest, Linear, LinearFlat, LinearMissing"]}
{"id": "C75", "title": "Distances with missing values", "statement": "metric.squaredEuclidean, taxicab and chebyshev are the sum of squares, the sum and the maximum of the similarity answers over the positions where both vectors have a value, scaled by total weight over present weight (nan if that is 0); euclidean is the root; minkowski with p = infinity is chebyshev. All are symmetric if the similarity is; taxicab and chebyshev are metrics without missing values. Misaligned vectors or weights and p <= 0 are the documented errors.", "quantifier": "all vectors, weights, patterns of missing values, similarity functions", "why_tests_cant": "all vectors and all similarity functions, which may be user functions with effects", "anchors": ["titus/lib/metric.py: MetricWithMissingValues, Minkowski, SimpleEuclidean, AbsDiff"]}
{"id": "C71", "title": "Values are never changed in place: variables, cells, pools and callers may share them", "statement": "Values are Python lists and dicts, and references to them are shared freely: reading a cell gives the object in the cell, putting a value in two places puts the same object in both, and an update along a path copies only the objects on the path. For every sequence of calls of an engine (begin, actions, merge, end), whatever was once read, computed or handed to the caller stays the value it was: later updates of cells and pools, deletions from pools, failing actions and their rollback do not change it. Each call behaves as if all values were copied at every step, and after a failing action every cell and pool marked for rollback has exactly the contents that it had before. Not so for the deprecated model.reg.updateChi2, which changes the record it is given: the record in a cell changes although the cell was not assigned to, and rollback does not undo it.", "quantifier": "for all heaps, all sharing between variables, cells and pools, all sequences of calls made of reads, updates with nested functions, deletions and try blocks of any length", "why_tests_cant": "tests look at the result of a call, not at what other holders of the same object see later; sharing that goes wrong shows only for particular combinations of reads and later updates", "anchors": ["titus/genpy.py:230-275", "titus/genpy.py:296-304", "titus/genpy.py:515-608", "titus/genpy.py:624-715", "titus/lib/model/reg.py:485-503"]}
{"id": "C76", "title": "Bytes and text convert back and forth without loss", "statement": "bytes.encodeX followed by bytes.decodeX gives the text back; encoding succeeds exactly for texts whose characters the encoding has and otherwise raises the documented PFA error; decoding raises the documented error or gives a text of the encoding; except for UTF-16 with a byte order mark, decoding followed by encoding gives the bytes back. The testers bytes.isX agree with the decoders (for bytes) and encoders (for strings). bytes.fromBase64 undoes bytes.toBase64, whose text is that of RFC 4648; len, subseq and subseqto depend on the bytes only; fixed.fromBytes overwrites from the left and keeps the size; enum.toInt numbers the symbols injectively from 0.", "quantifier": "for all texts and lists of bytes of any length, all six encodings, all indices", "why_tests_cant": "the UTF-8 and UTF-16 decoders accept and refuse infinitely many byte sequences; tests try a few texts per encoding and never bytes held as str by an earlier library call", "anchors": ["titus/lib/bytes.py", "titus/lib/fixed.py", "titus/lib/enum.py"]}
{"id": "C77", "title": "Parsing numbers accepts exactly Python's integer texts and fails cleanly", "statement": "parse.int and parse.long return n exactly when the base is between 2 and 36 and the text is, up to Unicode digits and blanks, blanks, an optional sign, an optional prefix 0x/0o/0b that goes with the base, digits of the base with single underscores between them, and blanks, standing for n in the range of the type; otherwise they raise the documented PFA error and nothing else. Whatever s.int and s.hex write (any non-zero width, either padding) is read back. parse.double returns what float() returns but for the sign of zero; parse.float in addition maps magnitudes beyond the float range to zero and to the infinity of the same sign.", "quantifier": "for all texts, all bases, all 32 and 64 bit integers, all widths, all binary64 values", "why_tests_cant": "texts are unbounded and Python's grammar is richer than the documented one (underscores, prefixes, other scripts); tests try a dozen texts", "anchors": ["titus/lib/parse.py: ParseInt, ParseLong, ParseFloat, ParseDouble", "titus/lib/pfastring.py: Hex, StringInt"]}
{"id": "C78", "title": "Median, mode and quantiles are the right order statistics", "statement": "a.median returns the middle item in increasing order: at most half of the items are smaller and at most half greater; of two middle items it returns the lower one, or their mean for float and double; the order of the array does not matter. a.mode returns the median of the most frequent items, and the most frequent item if there is one. a.ntile returns the smallest item for p <= 0, the largest for p >= 1, and for p between the item number floor((n - 1)p) or, for float and double, a mixture of two neighbours; a greater p never gives a smaller item. Empty arrays and nan raise the documented errors.", "quantifier": "for all arrays of any length and item type, all strict weak orders, all binary64 p", "why_tests_cant": "quantifies over every permutation and every tie; tests use a few sorted arrays", "anchors": ["titus/lib/array.py: Median, Mode, NTile"]}
{"id": "C79", "title": "A chain of engines does what the engines do one after the other", "statement": "titus.producer.chain.ast makes one document from a list of map and emit engines. Its begin, action and end run without error whenever those of the engines do, its outputs are those of the engines connected one after the other (each given everything the one before it returned or emitted), and the cells and pools of every step hold the same values under the name of the step. In a chain of maps an exception of a step is the exception of the chain. Names of functions, cells and pools of different steps never clash, even in a chain of copies of one engine. This needs: no deletion from pools, no call by computed name, no engine variables (name, actionsStarted, ...) read inside functions, no clash of the variables of the begin (end) code of the steps, counters read only in chains of maps, no random numbers, no time limit; without these it is refuted by examples.", "quantifier": "for all lists of engine documents, libraries, input sequences and states reachable by begin, action and end", "why_tests_cant": "a chain has unboundedly many steps, each with arbitrary code, and states that depend on the whole input history; tests chain a few small engines", "anchors": ["titus/producer/chain.py: ast, genericReplacer, beginReplacer, actionReplacer, endReplacer, fcnReplacer"]}
{"id": "C80", "title": "Linear models give the affine function of their coefficients in each of their forms", "statement": "model.reg.linear gives const plus the sum of coeff times datum. With arrays a datum of another length is refused (31000, 31001); with maps a name missing in the datum or in the coefficients counts as zero and the order of the entries does not matter. The same model written with arrays or with maps gives the same number, and a model with several outputs gives for each output what the model of that output alone gives. model.reg.linearVariance is the quadratic form of the covariance matrix on the datum followed by 1, in the same four forms; a matrix of another size is refused (31010).", "quantifier": "for all models, data, numbers of coefficients and outputs, orders of iteration over a set, in any commutative ring", "why_tests_cant": "the forms agree for every number of names and every order of iteration; tests use a few fixed models", "anchors": ["titus/lib/model/reg.py: Linear, LinearVariance"]}
{"id": "C81", "title": "Networks compose, support vector scores are sums, kernels are symmetric", "statement": "model.neural.simpleLayers passes the datum through the affine layers, with the activation applied to each output of every layer but the last, in order and once each; layers that do not fit are refused (11001), no layer too (11000). A network is the composition of its parts, and one layer is a linear model. model.svm.score is const plus the sum of kernel times coefficient over all support vectors, whichever class they are listed in; with the linear kernel it is a linear model. m.kernel.linear, rbf, poly and sigmoid are symmetric in their two arrays, to the last bit. They refuse arrays of different lengths, each with its own code (23000, 23010, 23020, 23030).", "quantifier": "for all models, data, activations and kernels (with effects and exceptions where stated), in any commutative ring; kernels also in binary64", "why_tests_cant": "unboundedly many layers, sizes and support vectors, with user functions; tests use a few small models", "anchors": ["titus/lib/model/neural.py: SimpleLayers, matrix_vector_mult", "titus/lib/model/svm.py: Score", "titus/lib/kernel.py: dot, RBF, Linear, Poly, Sigmoid"]}
{"id": "C82", "title": "Naive Bayes scores are logarithms of probabilities", "statement": "model.naive.gaussian gives the logarithm of the product of the normal densities of the features; arrays and maps of the same entries give the same result, whatever the order of the entries. model.naive.multinomial gives the sum of the counts times the logarithms of the normalised class model, so that the scale of the model does not matter. model.naive.bernoulli gives the logarithm of the probability that the listed features, and no others of the model, are present. Models and data that do not match, variances that are not positive and probabilities outside of (0, 1) are refused with the documented codes.", "quantifier": "for all data, class models and orders of entries, over the real numbers", "why_tests_cant": "any number of features and any real parameters; the equality with the logarithm of a product is a statement about real functions, tests compare a few rounded values", "anchors": ["titus/lib/model/naive.py: Gaussian, Multinomial, Bernoulli"]}
{"id": "C83", "title": "Link functions: softmax gives a distribution, the others are monotone and in their range", "statement": "m.link.softmax gives positive numbers that sum to 1, in proportion to the exponentials of the inputs: it keeps their order and does not depend on a common shift; on a map it gives the same numbers under the same keys. m.link.logit is the inverse of the log-odds, increasing, between 0 and 1 and symmetric, and equals softmax of two numbers; loglog and cloglog are complementary; softplus is a smooth upper bound of relu within ln 2; cauchit is increasing and symmetric. All of them work element by element on arrays and maps.", "quantifier": "for all arrays, maps and real numbers", "why_tests_cant": "identities between real functions for any number of inputs; tests compare a few rounded values", "anchors": ["titus/lib/link.py: SoftMax, unwrapForNorm, Logit, CLoglog, LogLog, Cauchit, Softplus, ReLu"]}
{"id": "C84", "title": "The Kolmogorov-Smirnov statistic is the largest distance between the empirical distribution functions", "statement": "stat.test.kolmogorov compares two samples through d, the largest distance between their empirical distribution functions: d is never below a distance and, for samples in which no value occurs twice, is one. It lies in (0, 1] whenever it is used, so no division by zero follows. Samples of the same values give 1.0, one empty sample gives 0.0. The order of the samples, the order of the values and NaN values make no difference.", "quantifier": "for all samples of any totally ordered type of values", "why_tests_cant": "any sample sizes and any interleaving of values; the supremum over all points is not something a test can enumerate", "anchors": ["titus/lib/stat/pfatest.py: KSTwoSample"]}
{"id": "C85", "title": "Residuals, pulls and chi-square states", "statement": "stat.test.residual and pull work position by position on arrays and key by key on maps, with the same results for the same entries in any order; misaligned arguments, and only those, are refused with the documented codes; a zero uncertainty gives an infinity of the sign of the difference or NaN, never an error. updateChi2 adds the square of the pull, or the sum of the squares, to chi2 and one to dof: after any sequence of calls dof has grown by their number and chi2 is the running sum. reducedChi2 never fails, and chi2Prob refuses exactly a negative dof.", "quantifier": "for all arrays, maps and sequences of updates; all values that a PFA double can hold", "why_tests_cant": "any number of entries and updates, all floats and 64-bit ints including zeros, infinities and NaN", "anchors": ["titus/lib/stat/pfatest.py: Residual, Pull, UpdateChi2, ReducedChi2, Chi2Prob", "titus/lib/model/reg.py: Residual, Pull, UpdateChi2, ReducedChi2", "titus/util.py: div"]}
{"id": "C86", "title": "Gaussian processes: refusals, the Kriging weight and several outputs", "statement": "model.reg.gaussianProcess refuses ill-formed tables with the documented codes and accepts all others; a given Kriging weight is used instead of the one computed from the table; a table of several outputs gives for each the output of the table with only that one.", "quantifier": "for all inputs and tables, and any linear algebra behind the fit", "why_tests_cant": "any table size and number of outputs; the dependence between turns of the loop shows only with several outputs of different weights", "anchors": ["titus/lib/model/reg.py: GaussianProcess"]}
{"id": "C87", "title": "The rounding functions of the m library", "statement": "m.floor, m.ceil and m.rint of any finite double are the whole number below, above and nearest (ties to even); infinities and NaN pass through. m.round gives the nearest whole number with ties going up, as an int for a float and a long for a double, and refuses with the documented code exactly what does not fit, NaN and the infinities included. m.signum is the sign.", "quantifier": "for all finite doubles, infinities and NaN", "why_tests_cant": "2^64 values; the exceptions are single values next to a half and the odd numbers between 2^52 and 2^53", "anchors": ["titus/lib/pfamath.py: Ceil, Floor, Round, RInt, Signum, Hypot"]}
{"id": "C88", "title": "Holt-Winters states and forecasts fit together", "statement": "stat.sample.updateHoltWinters(Periodic) move the state by the forecast error: alpha, beta and gamma say by how much. Data that come as forecast change no later forecast; forecast1HoltWinters is the first of the n values of forecastHoltWinters; the cycle turns by one place for each datum; smoothing parameters outside of the range from 0 to 1 and empty cycles are refused with the documented codes.", "quantifier": "for all states, cycle lengths, smoothing parameters, numbers of data and of forecasts", "why_tests_cant": "Sequences of data of any length and cycles of any length; an off-by-one between the turning of the cycle and the index used for a forecast shows only for some lengths", "anchors": ["titus/lib/stat/sample.py: UpdateHoltWinters, UpdateHoltWintersPeriodic, Forecast1HoltWinters, ForecastHoltWinters"]}
{"id": "C89", "title": "Replacing missing values", "statement": "impute.errorOnNull refuses null with its code and gives any other value accepted for a nullable input type as a value of that type; impute.defaultOnNull gives the default exactly for null. Each double is a number, NaN or infinite; impute.errorOnNonNum tells the cases apart by error code and impute.defaultOnNonNum replaces exactly what is no number.", "quantifier": "for all nullable types, all inputs the engine accepts for them, all defaults and all doubles", "why_tests_cant": "Values of a union are sometimes tagged and sometimes not; tests use tagged numbers", "anchors": ["titus/lib/impute.py"]}
{"id": "C90", "title": "Numbers of choices and the discrete distributions", "statement": "m.special.nChooseK counts the ways to choose k out of n. prob.dist.binomialPDF, geometricPDF, negativeBinomialPDF, hypergeometricPDF and poissonPDF give the probability of x in the trials or draws they stand for, the CDFs the sum of these probabilities up to x, and the QFs end and give the least x at which the CDF reaches p; parameters out of range are refused with the documented codes.", "quantifier": "for all sizes, probabilities, numbers of balls, arguments x and p", "why_tests_cant": "The distributions are defined by sums over all sequences of trials or draws; the wrong cases are at the ends of the range, and loops that do not end cannot be observed", "anchors": ["titus/lib/spec.py: NChooseK, nChooseK", "titus/lib/prob/dist.py: Binomial*, Geometric*, Hypergeometric*, NegativeBinomial*, Poisson*"]}
{"id": "C91", "title": "The continuous distributions", "statement": "For prob.dist gaussian, exponential, cauchy, lognormal, uniform and weibull with parameters in range, the CDF is a distribution function (never falling, from 0 to 1), the PDF (for the Gaussian: exp of LL) is its derivative, and the QF gives the least x at which the CDF reaches p (lognormal: an x at which the CDF is within 1e-8 of p, found after finitely many steps); a Gaussian given by mean and variance is the one given by mean and deviation; parameters and p out of range are refused with the documented codes.", "quantifier": "for all parameters, x and p", "why_tests_cant": "The claims relate three functions to each other at every real number, by a derivative, by limits and by an inverse; tests can only compare single values with tables", "anchors": ["titus/lib/prob/dist.py: Gaussian*, Exponential*, Cauchy*, Lognormal*, Uniform*, Weibull*"]}
{"id": "C92", "title": "Searching and changing documents by pattern", "statement": "titus.producer.tools: getmatch finds a match exactly when the document has the shape the pattern describes, and the match holds a copy of it up to position marks; search yields exactly the matching parts, each once, parts before the wholes that contain them, and index, contains, count, findRef and findCopy agree with it; get after assigned reads the new value there and the old values elsewhere, and assigning the old value back restores the document; removed takes away one key or item only; assignedAt replaces the matching parts.", "quantifier": "for all patterns, documents, indexes and values", "why_tests_cant": "Patterns nest without bound and the tree is changed while it is being searched; tests show single patterns on single documents", "anchors": ["titus/producer/tools.py: get, assigned, assignedAt, removed, getmatch, Group, Min, Start, End, Or, And, Approx, LT, LE, GT, GE, RegEx, Any, search, index, indexes, contains, count, findRef, findCopy"]}
{"id": "C93", "title": "The data of a running document have their static types", "statement": "If a document passes the type rules, then whatever inputs arrive and whatever order begin, action, merge and end are called in, every variable that the type checker put in scope exists and holds a value of its declared type, every cell, pool item, emitted value, tally and result has its declared type, an expression typed as always raising never returns, and an exception leaves all of this intact.", "quantifier": "for all documents obeying the type rules, all library functions obeying their signatures, all expressions, all states that agree with the declared types, all histories of fewer than 2^63 calls", "why_tests_cant": "Needs an induction over typing derivations and evaluations with arbitrary nesting of scopes, loops, user functions and callbacks; tests check single documents and never the type of every intermediate value.", "anchors": ["titus/pfaast.py:2066-2074", "titus/pfaast.py:3023-3161", "titus/pfaast.py:4090-4125", "titus/pfaast.py:5409-5461", "titus/pfaast.py:6159-6175", "titus/pfaast.py:1714-1738", "titus/genpy.py:1018-1052", "titus/util.py:140-179", "titus/datatype.py:85-116"]}
{"id": "C94", "title": "A learned decision tree sorts its training data, and its PFA document decides the same way", "statement": "titus.producer.cart: growing a tree ends; its leaves share out the rows of the dataset, none of them empty; asking the tree's questions about a row leads to the leaf the row was put in; the score of a leaf is the mean or a most frequent class; splitOnce takes the split with the largest decrease of squared deviations or entropy; splitComplete separates rows with different predictands; splitMaxDepth(m) asks at most m questions; and model.tree.simpleWalk with model.tree.simpleTest on pfaValue gives every record the score of the leaf its values lead to.", "quantifier": "for all datasets with columns of equal length, all subset limits, all splitting conditions, all records of the right types; the structural claims for every arithmetic, binary64 included, the optimality claims in exact arithmetic", "why_tests_cant": "Trees grow recursively from arbitrary data through floating-point gains; tests compare a few printed trees. That no row is lost or routed elsewhere, and that no better split exists, quantifies over all datasets and all splits.", "anchors": ["titus/producer/cart.py:64-109", "titus/producer/cart.py:231-285", "titus/producer/cart.py:287-376", "titus/producer/cart.py:378-436", "titus/producer/cart.py:438-517", "titus/producer/cart.py:519-566", "titus/producer/cart.py:568-635", "titus/producer/cart.py:659-709", "titus/producer/cart.py:799-903"]}
{"id": "C95", "title": "k-means clustering improves its centers, ends, and exports what it found", "statement": "titus.producer.kmeans: the first centers are different points of the dataset; closestCluster gives every point the first of its nearest centers; an unweighted iteration moves each center to the mean of its points and, without jumps, never increases the sum of the squared distances of the points to their nearest centers; optimize with moving() (or anything stricter) ends; the stopping conditions stop when documented; pfaValue names, sorts and counts the clusters, and model.cluster.closest on it gives a nearest cluster, the one of closestCluster if unsorted.", "quantifier": "for all datasets, numbers of clusters and columns, starting centers, random draws, metrics that order points as Euclidean distances do, and stopping conditions; the descent in exact arithmetic, the scoring in binary64", "why_tests_cant": "The centers move by sums over data-dependent groups and the loop has no bound of its own; tests run a few random clusterings. That no step makes the clustering worse and that no dataset loops for ever quantifies over all of them.", "anchors": ["titus/producer/kmeans.py:53-121", "titus/producer/kmeans.py:198-262", "titus/producer/kmeans.py:298-334", "titus/producer/kmeans.py:357-434", "titus/producer/kmeans.py:474-490", "titus/producer/kmeans.py:531-613"]}
{"id": "C96", "title": "Transformations do to Numpy columns what their PFA expressions do to every row", "statement": "titus.producer.transformation.Transformation: it can be made exactly when its expressions use the functions of its tables and the names in them are names of Python; its fields are the variables of its expressions, sorted; positional expressions come first, as _0, _1, ..., then the named ones, sorted. transform gives columns whose value in a row is what the PFA expression is worth on the fields of that row, wherever the fields stand among the columns of the table. new, let and expr put the same expressions into documents: replacing fields by expressions is worth what the expression is worth when the fields have the values of those expressions, so that a scoring engine computes for a datum the row that transform computes.", "quantifier": "for all expressions over the function tables, numbers of rows, tables, orders of columns, substitutions, and all value domains and functions on which Numpy and PFA agree", "why_tests_cant": "Tests transform one dataset by a few formulas. That the Numpy lambda and the PFA expression agree for every formula, for every permutation of the columns, and after every substitution, is an induction over expressions.", "anchors": ["titus/producer/transformation.py:43-88", "titus/producer/transformation.py:95-189", "titus/producer/transformation.py:191-242", "titus/producer/transformation.py:261-339"]}
{"id": "C97", "title": "Searching, splitting and replacing by regular expressions", "statement": "titus.lib.regex (re.index, contains, count, rindex, groups, indexall, findall, findfirst, findgroupsfirst, findgroupsall, groupsall, replacefirst, replacelast, split, replaceall): given what the C library finds in a text, the functions tell of the same list of successive matches. The first six functions of one match tell of its head; count is its length, indexall and findall its places and their texts, rindex its last place; split gives what stands between the matches and replaceall the replacement between those pieces; matches and pieces together make up the text. A list of matches exists, and the functions end, unless an empty match is reached. Patterns that cannot be compiled raise the error of the function.", "quantifier": "for all texts and bytes, all patterns (any function that finds matches inside its text), replacements and numbers of matches", "why_tests_cant": "Each function has a loop of its own over a stateful C interface whose array of groups is left over from search to search. Tests try a few patterns; that fifteen functions agree on one list of matches for every pattern, and that they end, quantifies over all of them.", "anchors": ["titus/lib/regex.py:82-167", "titus/lib/regex.py:183-195", "titus/lib/regex.py:198-294", "titus/lib/regex.py:298-444", "titus/lib/regex.py:448-562"]}
{"id": "C98", "title": "Python code written for PFA documents", "statement": "titus.producer.expression (pfa, fcn): Python code of assignments and expressions becomes PFA that is worth what the code is worth. Every operator, comparison, chain of comparisons, condition, 'and', 'or', call, attribute and name becomes the PFA expression that has its value, with substitutions in place of the names that have one; every assignment becomes a let of a name that is new or a set of one that is in scope, so a program leaves the same variables with the same values; and options such as line numbers change nothing but notes.", "quantifier": "for all syntax trees of Python expressions and programs, substitutions, cells, pools, symbols and options, and all meanings of the PFA functions", "why_tests_cant": "The translator is a recursion over syntax trees with a table for every operator and a different rule for every kind of call. Tests compare a few documents; that the document means what the code means quantifies over all trees, and needs a semantics of both sides.", "anchors": ["titus/producer/expression.py:30-117", "titus/producer/expression.py:119-198", "titus/producer/expression.py:215-365", "titus/producer/expression.py:367-420"]}
{"id": "C99", "title": "Operator expressions of PrettyPFA", "statement": "titus.prettypfa (ppfa, ppfas, expr and the sections of documents): a text of numbers, quoted texts, names, operators, parentheses, calls and brackets is read as the expression that the table of levels says: operators bind as tightly as their level, chains of one level group from the left, comparisons are not chained, parentheses may stand anywhere. No text has two meanings, every expression has a text, only texts of the grammar are accepted, and reading a text ends, with the error of the module or an expression.", "quantifier": "for all texts and all expressions of the modelled kinds, of any depth", "why_tests_cant": "The grammar is ambiguous and made unambiguous by a table of twelve levels that a generated automaton follows; the order of the token functions decides where numbers begin. Tests read some texts; that every nesting of twenty-three operators is read as the table says is a statement about all trees.", "anchors": ["titus/prettypfa.py:1246-1441", "titus/prettypfa.py:1575-1604", "titus/prettypfa.py:1625-1727", "titus/prettypfa.py:2036-2042", "titus/prettypfa.py:2071-2091", "titus/prettypfa.py:2268-2311"]}
{"id": "C100", "title": "Elementary functions never raise and have the documented special values", "statement": "m.acos, asin, atan, cos, sin, tan, tanh, sqrt, ln, log10, log, ln1p, exp, expm1, cosh and sinh: for every double, NaN and the infinities among them, a double is returned: the value of the function inside its domain, NaN outside it, minus infinity where a logarithm has its pole, the limits at the infinities. Only m.log with a base that is not positive raises, with 27170.", "quantifier": "for all doubles, and all integer bases of m.log", "why_tests_cant": "Domains and ends of domains are found by comparing or by catching Python's ValueError, one class of exception; a test tries some arguments, a missing case shows for arguments of a class that was not tried (infinite, just outside, too large).", "anchors": ["titus/lib/pfamath.py:71-101", "titus/lib/pfamath.py:134-173", "titus/lib/pfamath.py:199-260", "titus/lib/pfamath.py:310-361"]}
{"id": "C101", "title": "PrettyPFA statements become PFA that does what they say", "statement": "A PrettyPFA program of names, calls, blocks, extractions, assignments, if and while becomes a PFA expression that gives the same result or error and leaves the same cells, pools and variables: x is the variable x where there is one, else the cell, pool or function; the right-hand side of x = e is evaluated once and becomes the value of x; to applies a function.", "quantifier": "for all programs, cells, pools, functions, values and states, whether or not they end", "why_tests_cant": "One syntax stands for symbols, cells, pools and functions; which one is meant is decided from the names known when translating. A test uses a few names; clashes of names and right-hand sides with effects show only in programs nobody wrote a test for.", "anchors": ["titus/prettypfa.py:345-487", "titus/prettypfa.py:489-514", "titus/prettypfa.py:579-583", "titus/prettypfa.py:675-680", "titus/prettypfa.py:888-920", "titus/prettypfa.py:1022-1041", "titus/prettypfa.py:1115-1171"]}
{"id": "C102", "title": "Search patterns and extraction in pfainspector mean what they say", "statement": "json find, count, index and change in pfainspector find exactly the parts of a document that the pattern describes: words, texts and numbers stand for themselves, _ for anything, objects and arrays for those with these entries (at least these, with an ellipsis), # with <, <=, >, >= on one side or both for numbers within the limits, a +- b for numbers near a, & and | for both and either; groups are numbered 1, 2, 3 ... name[a, 0, b] is the part at that place or an error of the inspector, and the tab key offers exactly the items that are there.", "quantifier": "for all patterns and all documents", "why_tests_cant": "A pattern goes through a grammar, a tree and a matcher that were written apart from each other; a test tries numbers inside and outside of a range, not those at its limits, and documents without the clashes (key self, empty array, number in an object).", "anchors": ["titus/inspector/parser.py:65-76", "titus/inspector/parser.py:101-137", "titus/inspector/parser.py:206-232", "titus/inspector/parser.py:257-353", "titus/inspector/parser.py:355-386", "titus/inspector/parser.py:625-710", "titus/inspector/defs.py:219-287"]}
{"id": "C103", "title": "Replacing in pfainspector changes what was agreed to, or nothing", "statement": "json change in pfainspector replaces, inside the named document or part, the parts that match the pattern and were answered with yes (or come after all) by the replacement, in which (1), (2) ... are the groups of the match; everything else stays. After revert, and after any error, the document is as it was before the command.", "quantifier": "for all documents, places, patterns, replacements and sequences of answers", "why_tests_cant": "The document is changed while it is being searched, and what later matches are depends on the earlier answers; a test gives one sequence of answers for one document.", "anchors": ["titus/inspector/jsongadget.py:435-593", "titus/inspector/parser.py:51-52", "titus/inspector/parser.py:233-237", "titus/inspector/parser.py:295-299", "titus/inspector/parser.py:387-391", "titus/producer/tools.py:47-54", "titus/producer/tools.py:391-405"]}
{"id": "C104", "title": "Moving a cell or pool to a file and back keeps the model", "statement": "pfa externalize in pfainspector writes the initial value of the named cell or pool to the file and makes the cell or pool refer to it (source json); an engine made from the document afterwards starts with the same cells and pools, and nothing else in the document or in other files changes. pfa internalize is the way back: it embeds what the file or URL holds, and after both commands the document is the one at the beginning. After an error nothing has changed.", "quantifier": "for all documents, names, files, values of the option cell and states of the file system", "why_tests_cant": "The meaning of the document now depends on the file system and on all other cells that refer to files; a test has one document and one file.", "anchors": ["titus/inspector/pfagadget.py:486-601", "titus/inspector/pfagadget.py:603-719", "titus/reader.py:386-391", "titus/reader.py:878-930", "titus/reader.py:943-995", "titus/pfaast.py:1180-1184", "titus/pfaast.py:1280-1284"]}
{"id": "C105", "title": "pfainspector speaks of the document as it is now", "statement": "In a session of pfainspector a name stands for the document last loaded, renamed or changed under it; a command changes no other document than those it names and none if it fails; and whatever pfa valid, pfa types, pfa cells and the like report is about the document as it is at that time, not about an earlier state of it.", "quantifier": "for all sequences of commands, documents and errors", "why_tests_cant": "The syntax tree and the engine of a document are kept after their first use, so what a report says depends on the whole history of the session; a test has one history.", "anchors": ["titus/inspector/defs.py:338-376", "titus/inspector/main.py:58-118", "titus/inspector/jsongadget.py:484-510", "titus/inspector/jsongadget.py:586-594", "titus/inspector/pfagadget.py:58-79", "titus/inspector/pfagadget.py:427-466", "titus/inspector/pfagadget.py:596-599", "titus/inspector/pfagadget.py:710-711"]}
{"id": "C106", "title": "back undoes cd", "statement": "In pfainspector, back returns to the directory in which the last cd that is not yet undone was given; a cd that fails changes nothing; so after any commands, as many backs as cd commands were obeyed and not undone lead to the first directory, and one more is refused. cd accepts what os.path.expanduser makes a directory of.", "quantifier": "for all sequences of cd and back, trees of directories and failures", "why_tests_cant": "The stack of directories is changed before the directory is; a test goes into one directory and back.", "anchors": ["titus/inspector/main.py:40-42", "titus/inspector/main.py:153-166", "titus/inspector/defs.py:94-148"]}

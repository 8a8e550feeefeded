# Formal model of titus2 (a PFA scoring engine in Python)

`/repo` (animator/titus2, pinned) is read as text only. Everything here is about the Gallina model in
`rocq/theories`; the tie to the Python code is the citation (`file:lines`) on each definition.

## 1. Method

* Python functions become small total Gallina functions mirroring the Python branch by branch.
  Python exceptions are values (`PFAErr code`, `UserErr`, `TimeoutErr`, `AvroErr`, or `PyErr kind` for exceptions that are not PFA
  exceptions, such as `KeyError`, `IndexError`, `TypeError`, `AttributeError`; see Base.v). Mutation becomes returning the new value.
* Loops are structural recursion/folds; loops without a structural measure use fuel, fuel exhaustion
  being a distinguished outcome which the theorems exclude or prove impossible.
* Python `int` is `Z`; a Python `float` is IEEE binary64 as `Coq.Floats.SpecFloat.spec_float` with
  `prec = 53, emax = 1024` (executable, no axioms). Where a theorem is about an idealised arithmetic
  (running statistics) this is said at the definition (`Q`, rationals).
* Python `str` keys/names are Coq `string`s (code points restricted to 0..255); the string library is
  modelled on lists of code points (`list Z`) and is exact.
* Python `dict` is an association list in insertion order with unique keys (CPython >= 3.7 semantics).
* Layout: `*Model.v` holds definitions only (each with a citation); `*Proofs.v` holds lemmas; `*Props.v`
  holds the property theorems (each closed by `exact`), a non-vacuity `Example` for each, and
  `Print Assumptions` under each. Small topics may put Model and Proofs in one file but the
  `*Props.v` file is always separate.
* Where the faithful model violates the property, the theorem is named `..._refuted` and exhibits a witness;
  the part which does hold is `..._partial`. These are findings, listed in section 4.

## 2. Trusted base

* The Coq 8.16.1 kernel (including `vm_compute`).
* Reading of the Python source (citations) and of Python semantics (section 1).
* `Print Assumptions` is run below every property theorem; the outcome is recorded in section 5.
* Not modelled: Python's parser/exec of generated source text (the generated code is modelled by its
  meaning), the `avro` and `numpy` packages, the OS, wall-clock time (an oracle), `random` (an oracle
  stream), floating-point transcendental functions.

## 3. Properties and how each is treated

| id | model | proof |
|----|-------|-------|
| C01 | engine state (cells, pools, tally, counters); an action body is an arbitrary list of state updates possibly ended by an exception | induction over histories; per-call case analysis |
| C02 | same engine model | induction over histories, counting spec |
| C03 | Cell/Pool constructors and fromAst | invariant of every loaded engine |
| C04 | small-step interleaving semantics of threads doing acquire/read/compute/write/release | invariant (mutual exclusion + linearisation log) over all schedules |
| C05 | same, with raising updates | expected refuted: witness schedule; partial: no raising update => never blocked |
| C06, C07 | `get`/`update` on nested values | structural induction on paths; refuted for missing final elements |
| C08, C09 | DynamicScope as a stack of frames | refinement to a lexical-environment spec; multi-set refuted |
| C10, C11 | Avro types with named-record environments; `accepts` with memo | algorithm = greatest fixpoint; preorder laws; value soundness |
| C12 | LabelData.broadestType / distinctTypes | upper-bound proof |
| C13 | Sig/Sigs/P patterns | first-match, soundness by induction on patterns |
| C14 | PFAVersion, Lifespan | order laws, exclusive and exhaustive cases |
| C15, C16 | jsonDecoder, jsonEncoder, checkData | induction on types/values; refuted parts with witnesses |
| C17 | compare | induction on types; refuted for float NaN |
| C18-C20, C27, C28, C60 | lib/array.py | list induction, permutation/sortedness specs |
| C21-C24 | lib/core.py | integer arithmetic; refuted for // |
| C25, C26 | lib/cast.py | modular arithmetic; list specs |
| C29 | lib/pfastring.py | list induction |
| C30, C31 | lib/map.py | finite-map specs, permutation invariance |
| C32, C33 | pack/unpack, BinaryFormatter | codec round trip; format-name matcher |
| C34, C35 | calledBy, callDepth | equivalence with reachability / longest path |
| C36, C37 | expression language with static call collection and dynamic evaluation | refuted for attr/pool-to/library callbacks; partial for the rest |
| C38 | options, ExecutionState | refuted; partial |
| C39 | tryCatch | case analysis; refuted for exceptions without message |
| C40 | cast | first match |
| C41 | loops | fold specs |
| C42 | fold engine | induction over histories |
| C43 | ForwardDeclarationParser.parse | permutation invariance, termination |
| C44 | collect/replace | refuted for merge |
| C45, C46 | reader and jsonNode | round trip; refuted for non-syntax errors |
| C47 | updateTrigger | induction over histories |
| C48 | tree walks | structural induction |
| C49 | cluster/neighbor | list specs |
| C50 | interp.bin | real/rational arithmetic |
| C51-C53 | stat.sample | induction over histories in exact rational arithmetic; counts over any commutative monoid |
| C54 | calendar functions on a broken-down time | refuted (weekends count as work hours); partial |
| C55 | rand | oracle stream quantified universally |
| C56, C57 | la, metric | list induction |
| C58 | snapshot | round trip |
| C59 | SymbolTable vs DynamicScope | simulation between static and dynamic environments |

### 3.1 Modelled code, property by property

The exact lines are cited at each definition of the model; this table names the code a property is about and the file with its theorems.

| id | status | code | theorems in |
|----|--------|------|-------------|
| C01 | proved | titus/genpy.py: PFAEngine.action / actionEngine wrapper, Cell.maybeSaveBackup, Cell.maybeRestoreBackup, Pool.maybeSaveBackup, Pool.maybeRestoreBackup | EngineProps |
| C02 | proved | titus/genpy.py: PFAEngine.action wrapper (actionsStarted, actionsFinished) | EngineProps |
| C03 | proved | titus/pfaast.py: Cell._init, Pool._init | EngineProps |
| C04 | proved | titus/genpy.py: Cell.update, GeneratePython cellTo | ConcProps |
| C05 | partial | titus/genpy.py: Cell.update, Pool.update | ControlProps, ConcProps |
| C06 | proved | titus/genpy.py: get, update | CorePathProps, PathProps |
| C07 | partial | titus/genpy.py: get, update | PathProps |
| C08 | proved | titus/util.py: DynamicScope; titus/genpy.py: let, set | ScopeProps, CoreScopeProps |
| C09 | partial | titus/util.py: DynamicScope.set; titus/pfaast.py: SetVar.walk | ScopeProps |
| C10 | proved | titus/datatype.py: accepts methods of AvroType subclasses | TypeProps |
| C11 | partial | titus/datatype.py: accepts methods | TypeProps |
| C12 | proved | titus/signature.py: LabelData.broadestType, LabelData.distinctTypes | TypeProps |
| C13 | partial | titus/signature.py: Sigs.accepts, Sig.accepts, Sig.check, Sig.assign | SigProps |
| C14 | proved | titus/signature.py: PFAVersion, Lifespan | VersionProps |
| C15 | partial | titus/datatype.py: jsonDecoder, jsonEncoder | JsonProps |
| C16 | partial | titus/datatype.py: checkData | JsonProps |
| C17 | proved | titus/datatype.py: compare | JsonProps |
| C18 | proved | titus/lib/array.py: Sort, SortLT | ArrayProps |
| C19 | proved | titus/lib/array.py: highestN, lowestN, argHighestN, argLowestN; titus/lib/stat/sample.py: TopN | ArrayProps, StatProps |
| C20 | proved | titus/lib/array.py: Max, Min, Argmax, Argmin | ArrayProps |
| C21 | proved | titus/lib/core.py: checkForOverflow, Plus, Minus, Times, Negative; titus/lib/pfamath.py: Abs; titus/lib/array.py: Sum, Product | ArithProps, ArrayProps |
| C22 | partial | titus/lib/core.py: DivideInteger? ('//'), Modulo ('%'), Remainder ('%%') | ArithProps |
| C23 | proved | titus/lib/core.py: BitwiseAnd, BitwiseOr, BitwiseXOr, BitwiseNot | ArithProps |
| C24 | proved | titus/lib/core.py: KleeneAnd, KleeneOr, KleeneNot, LogicalAnd, LogicalOr | ArithProps |
| C25 | proved | titus/lib/cast.py: ToSigned, ToUnsigned | ArithProps |
| C26 | proved | titus/lib/cast.py: fanout functions | ArithProps |
| C27 | proved | titus/util.py: startEnd, negativeIndex; titus/lib/array.py: Subseq, SubseqTo, Head, Tail, Last, Init | ArrayProps, StrProps, BytesProps |
| C28 | partial | titus/lib/array.py: Distinct, SetEq, Union, Intersection, Diff, SymDiff, Subset, Disjoint | ArrayProps |
| C29 | proved | titus/lib/pfastring.py | StrProps |
| C30 | partial | titus/lib/map.py | MapProps |
| C31 | partial | titus/lib/map.py: Argmax, ArgHighestN, ZipMap | MapProps |
| C32 | partial | titus/genpy.py: pack, unpack; titus/pfaast.py: BinaryFormatter | PackProps |
| C33 | partial | titus/pfaast.py: BinaryFormatter.formatToDeclare | PackProps |
| C34 | proved | titus/genpy.py: PFAEngine.calledBy | CallGraphProps |
| C35 | proved | titus/genpy.py: PFAEngine.callDepth, isRecursive | CallGraphProps |
| C36 | partial | titus/pfaast.py: AttrGet.walk, AttrTo.walk, PoolTo.walk and the other walk methods | TraverseProps |
| C37 | partial | titus/genpy.py: PFAEngine.checkForDeadlock, hasSideEffects | DeadlockProps |
| C38 | partial | titus/options.py: EngineOptions; titus/genpy.py: ExecutionState.checkTime | ControlProps |
| C39 | partial | titus/genpy.py: tryCatch; titus/pfaast.py: Try | ControlProps |
| C40 | partial | titus/genpy.py: cast; titus/pfaast.py: CastBlock | ControlProps, CastBlockProps |
| C41 | proved | titus/genpy.py: foreach, forkeyval, for, while | ControlProps |
| C42 | proved | titus/genpy.py: PFAFoldEngine.action | EngineProps |
| C43 | proved | titus/datatype.py: ForwardDeclarationParser.parse | DeclProps |
| C44 | partial | titus/pfaast.py: EngineConfig.collect, EngineConfig.replace | TraverseProps |
| C45 | partial | titus/pfaast.py: jsonNode methods; titus/reader.py: _readArgument | ReadProps, ReadProps2 |
| C46 | partial | titus/reader.py | ReadProps, ReadProps2 |
| C47 | proved | titus/lib/stat/change.py: UpdateTrigger | StatProps |
| C48 | proved | titus/lib/model/tree.py: SimpleWalk, SimpleTree, MissingWalk | TreeProps |
| C49 | partial | titus/lib/model/cluster.py: Closest, ClosestN, KMeansIteration; titus/lib/model/neighbor.py: NearestK, BallR | ClusterProps |
| C50 | partial | titus/lib/interp.py: Bin | InterpProps |
| C51 | proved | titus/lib/stat/sample.py: Update, UpdateWindow | StatProps |
| C52 | proved | titus/lib/stat/sample.py: UpdateWindow | StatProps |
| C53 | partial | titus/lib/stat/sample.py: FillHistogram, FillCounter | StatProps, Hist2Props |
| C54 | partial | titus/lib/pfatime.py: IsWorkHours, IsWeekend | TimeProps |
| C55 | partial | titus/lib/rand.py | RandProps |
| C56 | partial | titus/lib/la.py: Transpose, Add, Sub, Scale, Trace | LaProps |
| C57 | partial | titus/lib/metric.py: BinaryMetric | MetricProps |
| C58 | partial | titus/genpy.py: PFAEngine.snapshot | SnapProps |
| C59 | partial | titus/pfaast.py: SymbolTable, Ref.walk, Let.walk, SetVar.walk; titus/util.py: DynamicScope | StaticProps |
| C60 | proved | titus/lib/array.py | ArrayProps |
| C61 | partial | titus/lib/pfamath.py: CopySign | ArithProps |
| C62 | partial | titus/lib/core.py: Pow, powLikeJava | ArithProps |
| C63 | partial | titus/util.py: callfcn; titus/genpy.py: FcnRef handling; titus/lib/core.py | RefProps |
| C64 | partial | titus/lib/array.py: Contains, Count, Index, RIndex, StartsWith, EndsWith | ArrayProps |
| C65 | partial | titus/genpy.py: Pool.update, pooldel | ConcProps |
| C66 | partial | titus/lib/cast.py: ToInt, ToLong, ToFloat, ToDouble | CastProps, HalfProps |
| C67 | proved | titus/lib/stat/sample.py:96-170 | StatProps |
| C68 | proved | titus/lib/stat/sample.py:267-302 | StatProps |
| C69 | proved | titus/lib/stat/change.py:91-101 | StatProps |
| C70 | proved | titus/lib/stat/sample.py:715-746 | StatProps |
| C71 | partial | titus/genpy.py:230-275, 296-304, 515-608, 624-715; titus/lib/model/reg.py:485-503 | HeapProps |
| C72 | partial | titus/lib/pfatime.py | TimeProps |
| C73 | partial | titus/lib/model/tree.py: simpleComparison, CompoundTest, MissingTest, SurrogateTest | TreeProps |
| C74 | partial | titus/lib/interp.py: Nearest, Linear, LinearFlat, LinearMissing | InterpProps |
| C75 | partial | titus/lib/metric.py: MetricWithMissingValues, Minkowski, SimpleEuclidean, AbsDiff | MetricProps |
| C76 | partial | titus/lib/bytes.py; titus/lib/fixed.py; titus/lib/enum.py | BytesProps |
| C77 | partial | titus/lib/parse.py: ParseInt, ParseLong, ParseFloat, ParseDouble; titus/lib/pfastring.py: Hex, StringInt | ParseProps |
| C78 | partial | titus/lib/array.py: Median, Mode, NTile | RankProps |
| C79 | proved | titus/producer/chain.py: ast, genericReplacer, beginReplacer, actionReplacer, endReplacer, fcnReplacer | ChainProps |
| C80 | partial | titus/lib/model/reg.py: Linear, LinearVariance | LinregProps |
| C81 | partial | titus/lib/model/neural.py: SimpleLayers, matrix_vector_mult; titus/lib/model/svm.py: Score; titus/lib/kernel.py: dot, RBF, Linear, Poly, Sigmoid | NetProps |
| C82 | partial | titus/lib/model/naive.py: Gaussian, Multinomial, Bernoulli | BayesProps |
| C83 | partial | titus/lib/link.py: SoftMax, unwrapForNorm, Logit, CLoglog, LogLog, Cauchit, Softplus, ReLu | LinkProps |
| C84 | partial | titus/lib/stat/pfatest.py: KSTwoSample | KsProps |
| C85 | partial | titus/lib/stat/pfatest.py: Residual, Pull, UpdateChi2, ReducedChi2, Chi2Prob; titus/lib/model/reg.py: Residual, Pull, UpdateChi2, ReducedChi2; titus/util.py: div | PullProps |
| C86 | partial | titus/lib/model/reg.py: GaussianProcess | GpProps |
| C87 | partial | titus/lib/pfamath.py: Ceil, Floor, Round, RInt, Signum, Hypot | MathProps, HalfProps |
| C88 | partial | titus/lib/stat/sample.py: UpdateHoltWinters, UpdateHoltWintersPeriodic, Forecast1HoltWinters, ForecastHoltWinters | HoltProps |
| C89 | partial | titus/lib/impute.py | ImputeProps |
| C90 | partial | titus/lib/spec.py: NChooseK, nChooseK; titus/lib/prob/dist.py: Binomial*, Geometric*, Hypergeometric*, NegativeBinomial*, Poisson* | DistProps |
| C91 | partial | titus/lib/prob/dist.py: Gaussian*, Exponential*, Cauchy*, Lognormal*, Uniform*, Weibull* | ContProps |
| C92 | partial | titus/producer/tools.py: get, assigned, assignedAt, removed, getmatch, Group, Min, Start, End, Or, And, Approx, LT, LE, GT, GE, RegEx, Any, search, index, indexes, contains, count, findRef, findCopy | ToolsProps |
| C93 | partial | titus/pfaast.py:2066-2074, 3023-3161, 4090-4125, 5409-5461, 6159-6175, 1714-1738; titus/genpy.py:1018-1052; titus/util.py:140-179; titus/datatype.py:85-116 | TypingProps |
| C94 | partial | titus/producer/cart.py:64-109, 231-285, 287-376, 378-436, 438-517, 519-566, 568-635, 659-709, 799-903 | CartProps |
| C95 | partial | titus/producer/kmeans.py:53-121, 198-262, 298-334, 357-434, 474-490, 531-613 | KmeansProps |
| C96 | partial | titus/producer/transformation.py:43-88, 95-189, 191-242, 261-339 | TransProps |
| C97 | partial | titus/lib/regex.py:82-167, 183-195, 198-294, 298-444, 448-562 | RegexProps |
| C98 | partial | titus/producer/expression.py:30-117, 119-198, 215-365, 367-420 | PexProps |
| C99 | partial | titus/prettypfa.py:1246-1441, 1575-1604, 1625-1727, 2036-2042, 2071-2091, 2268-2311 | PrettyProps |
| C100 | partial | titus/lib/pfamath.py:71-101, 134-173, 199-260, 310-361 | ElemProps |
| C101 | partial | titus/prettypfa.py:345-487, 489-514, 579-583, 675-680, 888-920, 1022-1041, 1115-1171 | PprProps |
| C102 | partial | titus/inspector/parser.py:65-76, 101-137, 206-232, 257-353, 355-386, 625-710; titus/inspector/defs.py:219-287 | InspProps |
| C103 | partial | titus/inspector/jsongadget.py:435-593; titus/inspector/parser.py:51-52, 233-237, 295-299, 387-391; titus/producer/tools.py:47-54, 391-405 | ChgProps |
| C104 | partial | titus/inspector/pfagadget.py:486-601, 603-719; titus/reader.py:386-391, 878-930, 943-995; titus/pfaast.py:1180-1184, 1280-1284 | XtnProps |
| C105 | partial | titus/inspector/defs.py:338-376; titus/inspector/main.py:58-118; titus/inspector/jsongadget.py:484-510, 586-594; titus/inspector/pfagadget.py:58-79, 427-466, 596-599, 710-711 | SesProps |
| C106 | partial | titus/inspector/main.py:40-42, 153-166; titus/inspector/defs.py:94-148 | DirProps |

### 3.2 Code that is not modelled

* As a whole: `titus/inspector/main.py` except load, rename and drop (C105), cd and back (C106) and `titus/inspector/pfagadget.py` except externalize and internalize (C104) and how the others use the document (C105), the scripts in `scripts/`, `titus/version.py`,
  the lexers and parse tables of ply (C99 models the machine that ply documents, on tokens), the `avro` and `numpy` packages, Python's `re`, `math`, `random`, `struct` and `time` modules beyond what the models say of them.
* Within modelled files, from the notes in MANIFEST.json:
  * C14: fromString and == (identity, no __eq__) are not modelled.
  * C29: Noted besides: the result of replaceall may contain the replaced string again, and with an empty separator s.split gives no pieces. s.lower, s.upper and s.number of doubles are not modelled.
  * C44: CastCase nodes and replacements of a whole clause of cond are not modelled.
  * C55: Missing: half-open range for doubles (refuted: rounding reaches high, and an overflowing difference gives infinity), an index for every distribution (refuted: None if the sum of weights overflows or is subnormal), characters only (refuted: surrogate 0xD800), negative sample sizes (ValueError), UUIDs of 36 characters (refuted: 40). rand.gaussian is not modelled; the redrawing loop of random.sample has fuel.
  * C56: Not modelled: inverse, det, eigenBasis, zipmap of maps.
  * C57: Exact quotients (rounding not modelled).
  * C60: zipmap modelled for two arrays; periodic time-limit checks not modelled here
  * C67: Array variant, exact arithmetic; the map variant is not modelled.
  * C72: Timestamps are whole microseconds (the rounding of datetime.fromtimestamp and of total_seconds is not modelled); pytz zones are two arbitrary functions.
  * C74: Linear interpolation over exact rationals (rounding, infinities and nan not modelled); nearest over binary64 whenever no distance is nan.
  * C75: Exact rationals (rounding, infinities and nan inputs not modelled); the power used by minkowski with finite p is a parameter.
  * C77: The conversion of decimal text to binary64 by float() is not modelled: C77_double and C77_float start from its result.
  * C77: Not modelled: the 4300 digit limit of newer Python versions.
  * C79: Not modelled: renaming and checking of types, source positions.
  * C80: Exact arithmetic (any commutative ring); rounding and numpy's order of summation are not modelled, so the claim is not settled for binary64.
  * C82: Over the real numbers (rounding is not modelled); the record forms only unwrap their field.
  * C83: Over the real numbers with the overflow of math.exp: rounding, NaN and infinities are not modelled; probit and tanh only as far as working element by element.
  * C84: The statistic is exact (rational numbers); the step from the statistic to the probability is not modelled.
  * C85: mahalanobis and the chi-square distribution are not modelled.
  * C86: The linear algebra of fit and predict is a parameter; the field sigma and a number as x are not modelled.
  * C87: The elementary functions (exp, ln, sin, ...) are not modelled.
  * C92: Not modelled: look, index strings.
  * C94: Not modelled: the optional statistics in pfaValue, maxSubsetSize = 1 in pfaValue's link to the engine.
  * C95: Not modelled: random subsets, stepup, overflow, GaussianSimilarity, the printing conditions.
  * C96: The parser, Numpy itself, record arrays and more than a hundred positional expressions are not modelled.
  * C97: The regular expressions of the C library, regcomp and ctypes are not modelled.
  * C98: The branches of _statement after the first use of ast.Print, and Python's parser, are not modelled.
  * C99: The parser is modelled as the machine ply documents; blocks, assignments, functions, control structures, substitutions and sections are not modelled.
  * C101: The other statements (for, foreach, cast, unpack, try, error, log, json, new) are not in this model.
  * C102: The lexer, and how completions are quoted, are not modelled.
  * C103: Not modelled: printing, how answers are read from the terminal, and parts of the document that are one object in memory.
  * C104: Not modelled: reading the options of the command, texts of files (JSON values instead), the cached engine of pfainspector, which neither command resets.
  * C105: Not modelled: parsing of command lines, save, help, tab completion, files that cells refer to and that change during the session.
  * C106: Not modelled: reading the arguments, directories that are removed or renamed during the session, symbolic links beyond the name that getcwd gives.

## 4. Findings

What is modelled, file by file (everything else in `/repo` is not):

| code | model files |
|------|-------------|
| lib/core.py (arithmetic, comparison, bitwise, logic), util.div | PyNum, ArithModel |
| lib/array.py (slices, sorting, sets, min/max, higher-order, searching) | ArrayModel; unmodelled: mean, geoMean, shuffle, logsumexp, `*WithIndex` variants |
| lib/map.py | MapModel |
| lib/cast.py (number casts, signed/unsigned, fanouts) | ArithModel, ArrayModel, CastProps |
| lib/stat/change.py (trigger, CUSUM), lib/stat/sample.py (update, window, covariance on arrays, EWMA, histogram, counter, topN) | StatModel; unmodelled: zValue, covariance on maps |
| util.DynamicScope, pfaast.SymbolTable | ScopeModel, StaticModel |
| genpy.get/update, Cell, Pool, expression evaluation (do, let, set, attr, cell, pool, if, cond, while, do-until, for, foreach, forkeyval, cast-cases, upcast, ifnotnull, try, error, pack-free calls, fcn refs and fills) | CoreModel |
| PFAEngine begin/action/end/merge, counters, rollback, fold, emit, timeouts | EngineModel |
| threads with shared cells/pools | ConcModel |
| genpy call graph, calledBy, callDepth, isRecursive, checkForDeadlock; pfaast collect/replace | CallGraphModel, TraverseModel |
| datatype.accepts, broadestType, jsonDecoder/jsonEncoder, compare, checkData | TypeModel, JsonModel |
| signature.PFAVersion, Lifespan | VersionModel |
| genpy.pack/unpack, pfaast.BinaryFormatter, the needed part of `struct` and `re` | PackModel |
| lib/model/tree.py, missing-value and predicate trees | TreeModel |
| lib/pfatime.py | TimeModel |
| signature.py (Sig, Sigs), P.py patterns | SigModel |
| lib/model/cluster.py, neighbor.py | ClusterModel |
| lib/interp.py | InterpModel |
| lib/metric.py | MetricModel |
| lib/la.py | LaModel |
| lib/pfastring.py | StrModel |
| lib/rand.py | RandModel |
| genpy fromAst, snapshot; reader cells and pools | SnapModel |
| datatype.ForwardDeclarationParser, AvroTypeBuilder | DeclModel |
| reader.py, pfaast jsonNode | ReadModel |
| lib/fcn.py, util.callfcn, FcnRef and the function table | RefModel, RefTable |
| genpy Cell, Pool, get, update as objects and references | HeapModel |
| lib/bytes.py, fixed.py, enum.py | BytesModel |
| lib/parse.py | ParseModel |
| lib/array.py median, mode, ntile | RankModel |
| producer/chain.py ast | ChainModel |
| lib/model/reg.py linear, linearVariance | LinregModel |
| lib/model/neural.py, svm.py, lib/kernel.py | LinregModel |
| lib/link.py, lib/model/naive.py | LinkModel |
| lib/stat/pfatest.py | KsModel, PullModel |
| lib/model/reg.py residual, pull, mahalanobis (deprecated names) | PullModel |
| lib/model/reg.py gaussianProcess | GpModel |
| lib/pfamath.py rounding, signum, hypot | MathModel; the functions that only call `math` are unmodelled |
| lib/stat/sample.py fillHistogram2d | Hist2Model |
| lib/stat/sample.py Holt-Winters | HoltModel |
| lib/impute.py | ImputeModel |
| lib/spec.py nChooseK, lib/prob/dist.py discrete distributions | DistModel |
| lib/prob/dist.py Gaussian, exponential, Cauchy, lognormal, uniform, Weibull | ContModel; unmodelled: F, chi squared, gamma, beta, t |
| producer/tools.py without look and index strings (re is a parameter) | ToolsModel |
| pfaast.CastBlock checks | CastBlockModel |

Simplifications are stated at the definitions. Generated Python source text is modelled by its meaning.

Places where the code does not have the property a user would expect (theorem `..._refuted` unless noted):

* C02: an ill-typed input raises before it is counted.
* C03/C05: a shared cell's lock is not released when the update raises; other threads then wait for ever.
* C04/C65: pool-del takes no lock: a concurrent update fails with KeyError and leaves the item locked for good.
* C07: updating a path whose last step is missing is silently ignored; a negative index read wraps, but an update with it is reported.
* C09, C59: a multi-set (`{"set": {"x":.., "y":..}}`) across scopes always raises RuntimeError.
* C10: acceptance is not transitive between documents that define one name differently.
* C11: double accepts the union [int, double], but the run-time datum is `{"int": 3}`.
* C12: broadestType on [array int, array string, null] raises needlessly; for empty lists it returns an exception object.
* C14: `==` of PFAVersion is identity.
* C15: jsonEncoder ignores union tags; infinities decoded as int raise OverflowError.
* C16: checkData has no int range check, takes booleans as ints, ignores enum symbols, fixed sizes and record defaults, reads "12" in [int,string] as an int and "null" in [null,string] as null, and rejects one-entry untagged maps and records in unions; bytes from checkData can be neither encoded nor compared.
* C17: float NaN equals everything; maps raise NotImplementedError; unknown tags IndexError; an untagged value takes the last matching type.
* C22, C61, C62, C28, C64, C66: floor division, copysign, integer powers, set intersection, nested arrays, number casts: see the theorems of those names.
* C30/C31: map.zipmap refuses equal key sets inserted in different orders; map.toset and map.corresponds depend on insertion/hash order.
* C32: struct.error for integers that the type checker accepts; null bytes in null-terminated data; TypeError on bytes held as strings; unsigned long gives an int although declared double.
* C33: every spelling of int64, unsigned int64 and float64 means 4 bytes; text after a recognised name is ignored; errors are NameErrors.
* C36: calls in attr/attr-to expressions, in pool-to init and as a call's name are missing from the call graph.
* C37: six kinds of documents that deadlock themselves are accepted.
* C38: begin and end run under the action's limit, all limits come from the key "timeout", merge has none.
* C39: try without filter swallows timeouts; with a filter, an exception without a message becomes AttributeError.
* C40: a non-partial cast passes the check with a union as case type for a number and then returns null; an expression that is no union is matched by decoding only, so a double is cut by a case for int, and infinity raises OverflowError.
* C44: EngineConfig.collect/replace leave out merge.
* C53: weight is lost when the record lacks the flow field; overlapping ranges count twice; rounding can raise IndexError/ValueError for a datum inside; the first datum of an empty low/binsize histogram goes to bin 0.
* Not tied to a theorem: library FcnRef as `to` raises AttributeError; FcnRefFill does not check fill types; snapshot loses the fold tally and json.dumps of bytes raises; user functions by reference run on the caller's scope (harmless thanks to the static check).
* C73: in/notIn against a list with union items never finds an untagged field value; a string field differs from the equal string in a value type like [string, bytes].
* C13, C49, C50, C54, C57, C72, C75: see the theorems named `_refuted` of these properties and the notes in MANIFEST.json.
* C29: replaceall can leave the original in place (overlaps); an empty separator raises ValueError.
* C43: the result depends on the order in which a memoizing parser has seen the types; a repeated nested definition is refused.
* C45/C46: see MANIFEST notes (what the reader takes although it should not, and what the writer gives that the reader refuses).
* C55: rand.string can give a surrogate; the double can equal the upper end or be infinite; rand.histogram returns None when the total overflows and raises TypeError for records; a negative sample size raises ValueError; uuid4 strings have 40 characters.
* C56: dot of ragged arrays raises ValueError; transpose and trace of maps with missing keys KeyError.
* C58: embedded pools cannot be read back (json.loads of a dict); callable pool initialisers are impossible.
* C63: callfcn passes the module's own `pos` function as position, so every PFARuntimeException of a referenced library function becomes a TypeError; `&&&` and `|||` by reference raise TypeError, `{"fcn": "emit"}` AttributeError.
* C71: updateChi2 changes its argument in place; the caller of an action gets the very object that the cell holds.
* C76: bytes testers raise TypeError for bytes read from JSON; a padding error of base64 is not a PFARuntimeException; comparing such bytes raises TypeError.
* C77: underscores, base prefixes, blanks and digits of other scripts are accepted; parse.float is not rounded to single precision; the sign of -0.0 is lost.
* C78: the mode of reals need not be an item; equal maps with different insertion order are counted apart.
* C79: a chain with a version number or an embedded pool cannot be made; pool-del, calls by computed name and functions written in place are not adapted; after a failure all steps are rolled back; try around emit catches exceptions of later steps.
* C81: the rbf kernel of finite arrays raises OverflowError when a difference exceeds about 1e154.
* C82–C87: see the theorems named `_refuted` of these properties and the notes in MANIFEST.json.
* C88: one NaN stays in the state for ever.
* C89: impute on a union with a map inside takes the map's first value for the union's content.
* C90: nChooseK(n, n) is refused; binomialPDF(n, n) is 0; the hypergeometric functions are wrong from x = m on and the QF need not end; geometricQF and negativeBinomialQF are one too large where p is a value of the CDF.
* C91: exponential with rate 0 is no distribution; gaussianQF(1) with deviation 0 is infinite.
* C92: assignedAt replaces parts that match only after inner replacements, and raises IndexError if the whole document matches; True matches 1; NaN is below every limit; a literal in a Group raises AttributeError; findCopy drops "@" although documented to return an identical copy.
* C93: a plain type accepts a union whose data are tagged (set x: double from [int, double] leaves {"int": 3}); ifnotnull binds {"int": 3} as a double; set of several variables writes outer variables that an inner ifnotnull or cast hides, whatever their type; the types of arguments of a fill are not checked.
* C94: in a node where a category is absent, categoricalNVarianceGainTerm returns positions instead of codes (cart.py:612, 359), so nodes are split wrongly or not at all; a cut between equal numbers is credited with a gain, so a constant column can hide a perfect one (cart.py:415-434, 545-564); numNotInSelection is one too large (cart.py:390); canSplit is true for a node of one class (cart.py:273); the PFA document of an unsplit tree holds a bare score (cart.py:829); scoreDistribution has type map of int but holds fractions; a dataset without fields raises AttributeError, maxSubsetSize=0 TypeError.
* C95: `residuals *= weights[selection]` (kmeans.py:409) scales columns or raises ValueError, and the step divides by the number of points instead of their weight; clusterJumped and moving stop at the first jump (204, 262), the opposite of their documentation; maxIterations(n) runs n + 1 iterations (212); pfa of SquaredEuclidean, Chebyshev, Taxicab and Minkowski overwrites its arguments with undefined names (88, 98, 108, 119); pfaDocument declares populations where pfaValue writes population (593, 552).
* C96: findFields takes text literals for fields (transformation.py:109) and replace replaces them (130), so `x == "yes"` needs a column `yes`; null literals raise TypeError (152); constant expressions make vstack raise or give one row (242); a field named numpy or math hides the module in the lambda (189); %% is numpy.remainder, with the sign of the divisor (56), and m.round is numpy.round, half to even (not modelled).
* C97: nine functions of lib/regex.py loop for ever when a pattern has an empty match (242-246, 264-267, 309-313 and so on: start = region.end[0] does not move); search refuses every match at the end of the text, so that the empty text matches nothing (137); positions are those of UTF-8 bytes (208, haystack_indices is computed but never used); regexec sees C strings and forgets what follows a byte 0 (134); without REG_NOTBOL ^ matches at every restart (134-135); groups without a match are dropped and shift the others (163-165); split drops one empty piece at either end only (521-524); a match inside a character raises UnicodeDecodeError (185).
* C98: producer/expression.py on Python 3: _statement compares with ast.Print (153), which does not exist, so any statement that is not an assignment raises AttributeError; on Python 3.9 ast.Index is gone and subscripts recurse for ever (367-382); True, False and None are ast.NameConstant, which nothing handles; "in" and "is" end in AttributeError and "@" in UnboundLocalError instead of PythonToPfaException; Negative is translated to "U-"; f([1, 2]) is f(1, 2); a < b < c evaluates b twice; a cell named alone becomes a symbol; `x, y = 1, 2, 3` is accepted; fcn has no symbols, so changing a parameter is a let, which PFA refuses; texts of keywords stay {"string": ...}, so types cannot be written; and line numbers keep {"string": ...} in Error(String("no")).
* C99: prettypfa.py: t_NUMBER takes a minus before a digit for its sign (1272), so that x-1 and x -1 are syntax errors and -2 ** 2 is (-2) ** 2 while -x ** 2 is -(x ** 2); LBRACKET has no level (1625-1636), so that brackets after a call or a group extract from everything before them: a + f(x)[0] is (a + f(x))[0] and -f(x)[0] is (-f(x))[0]; arguments may be empty before a comma (1593-1604), so that f(, x) is accepted.
* C100: m.exp, m.expm1, m.cosh and m.sinh raise Python's OverflowError for large finite arguments, which is no PFA error and is not caught by try; m.ln1p and m.expm1 are computed as math.log(1 + x) and math.exp(x) - 1.0 and return zero for every positive x below 2^-53 (2^-54).
* C101: in PrettyPFA a variable that has the name of a cell, pool or function cannot be read (the cell or a function reference is meant instead; the field pi of a variable m is the function m.pi); the right-hand side of an assignment to a pool item is evaluated twice; in x = 1, y = 2 a cell x is taken for a variable; x = f(k: 1) on a cell applies f(k: 1) instead of being refused; f(x, y: 3) drops x without an error.
* C102: in pfainspector's patterns a < # < b finds a itself and a <= # < b does not (p_range3 reverses < into >= and <= into >); {self: 1 ...} raises TypeError (Min takes the keys as keyword arguments); name[0] on an object raises KeyError instead of the inspector's error; the tab key in an empty array raises ValueError (math.log10(0)).
* C103: json change in pfainspector cannot replace the named document or part itself: it ends in an IndexError, and all replacements agreed to before are rolled back; a group before an & cannot be used in the replacement (And keeps the groups of the last operand only); the third argument need not be "to".
* C104: a pool that pfa externalize has moved to a file cannot be read any more (_readPool demands a map as init and then calls json.loads on it, so source json and source avro never work for pools); a pool without init gets init null when it is externalized and internalized; externalizing a second cell to the same file overwrites the first; neither command resets the cached engine of the document.
* C105: after pfa externalize or internalize, pfa valid and the other pfa commands of pfainspector report on the document as it was before (the kept engine is not reset); rename a as a deletes the document; pfa valid help and pfa calls help print the help and then raise UnboundLocalError (read in the code, not modelled).
* C106: in pfainspector a cd into a directory that may not be entered is put on the stack although it fails, so that the next back leads nowhere; cd ~ is refused (isdir is asked before expanduser).
* Not modelled: SimpleCommand of pfainspector tests for too many arguments with < instead of > (titus/inspector/defs.py:528), so that pwd x ends in a TypeError instead of the message.
* Not modelled: P.toType(P.fromType(t)) truncates recursive records; fromType of a function type calls a list; the `@` position mark must be text; _readEngineConfig uses data.get before the isinstance check.

## 5. Print Assumptions

Every property theorem is followed by `Print Assumptions` in its `*Props.v` file. No axiom is declared in `theories/`.

* 841 of the 960 theorems named in MANIFEST.json are "Closed under the global context": no axioms at all.
* The others go through the real numbers of the standard library (via Flocq, for the value of a rounded division or cast) and list:
  * `C100_functions`, `C100_growing`, `C100_log_base`, `C100_logarithms`, `C100_overflow_refuted`, `C100_small_refuted`, `C22_floordiv_int`, `C22_floordiv_partial`, `C25_signed`, `C25_unsigned`, `C40_exhaustive_partial`, `C55_double_partial`, `C55_histogram`, `C55_histogram_total_partial`, `C58_restores`, `C66_close`, `C66_every_number`, `C66_exact`, `C66_rounds_partial`, `C66_to_double`, `C78_ntile`, `C78_ntile_monotone`, `C82_bernoulli`, `C82_bernoulli_errors`, `C82_bernoulli_repeated_refuted`, `C82_gaussian`, `C82_gaussian_map`, `C82_multinomial`, `C82_multinomial_map_refuted`, `C82_multinomial_scale`, `C83_cauchit`, `C83_cloglog_total_refuted`, `C83_logit`, `C83_logit_total_refuted`, `C83_loglog`, `C83_softmax`, `C83_softmax_errors`, `C83_softmax_map`, `C83_softmax_total_refuted`, `C83_softplus`, `C87_double_refuted`, `C87_rint`, `C87_round_big`, `C87_round_every_number`, `C87_round_partial`, `C90_binomial_pdf_partial`, `C90_binomial_pdf_refuted`, `C90_binomial_qf`, `C90_binomial_qf_one_refuted`, `C90_choose_partial`, `C90_choose_refuted`, `C90_geometric_qf_partial`, `C90_geometric_qf_refuted`, `C90_geometric_qf_upper`, `C90_geometric_refused`, `C90_hyper_cdf_partial`, `C90_hyper_cdf_refuted`, `C90_hyper_pdf_partial`, `C90_hyper_pdf_refuted`, `C90_hyper_qf_partial`, `C90_hyper_qf_refuted`, `C90_negbin_cdf_refuted`, `C90_negbin_partial`, `C90_negbin_qf_refuted`, `C90_negbin_qf_upper_partial`, `C90_poisson_pdf`, `C90_poisson_qf_upper`, `C90_refused`, `C91_cauchy`, `C91_erf`, `C91_exponential`, `C91_gaussian`, `C91_gaussian_point`, `C91_gaussian_point_refuted`, `C91_gaussian_qf_partial`, `C91_gaussian_record`, `C91_lognormal`, `C91_lognormal_qf`, `C91_refused`, `C91_weibull`, `C91_weibull_zero`, `C94_class`, `C94_classification_partial`, `C94_complete_partial`, `C94_entropy_refuted`, `C94_mean`, `C94_regression_partial`, `C95_all_change`, `C95_assign`, `C95_descent`, `C95_ends`, `C95_half_change`, `C95_means`, `C95_metrics`, `C95_run`, `C95_value`: `ClassicalDedekindReals.sig_forall_dec`, `ClassicalDedekindReals.sig_not_dec`, `Classical_Prop.classic`, `FunctionalExtensionality.functional_extensionality_dep`
  * `C66_refuted`, `C87_ceil`, `C87_floor`, `C87_round_one_result`, `C87_round_refuted`, `C87_signum`, `C88_error_correction`, `C88_forecast_first`, `C88_gamma_zero`, `C88_own_forecast`, `C88_periodic_error_correction`, `C88_periodic_forecast`, `C88_periodic_own_forecast`, `C88_periodic_refused`, `C88_update`, `C90_binomial_cdf`, `C90_geometric`, `C91_uniform`: `ClassicalDedekindReals.sig_forall_dec`, `FunctionalExtensionality.functional_extensionality_dep`
  * `C83_softmax_logit`, `C83_softmax_shift`, `C90_poisson_cdf`, `C91_exponential_refuted`: `ClassicalDedekindReals.sig_forall_dec`, `ClassicalDedekindReals.sig_not_dec`, `FunctionalExtensionality.functional_extensionality_dep`
  * `C88_forecast_length`: `ClassicalDedekindReals.sig_forall_dec`

All four are axioms of the Coq standard library. (`vcheck` also lists the axioms that the loaded library modules contain; only the ones above are used.)

# Formal model of yapCAD in Rocq (Coq 8.16.1)

Source: /repo at the pinned commit, read as text. Nothing in /repo is run.

## Layout

`rocq/theories/<Area>_Model.v` holds definitions only, each citing the file and
lines it models; `<Area>_Spec.v` (where it helps) a small independent
specification; `<Area>_Proofs.v` the lemmas; `<Area>_Props.v` the property
theorems and nothing else, each closed by `exact lemma`, with `Print
Assumptions` beneath. Names ending in `_refuted` prove that the code violates
the property, by a concrete witness; names ending in `_partial` prove part of it.

## General modelling decisions

* Python `int` is `Z` (`//`, `%` are floor division, as `Z.div`/`Z.modulo`).
* Python exceptions are values; loops are structural recursion, folds, or
  recursion on fuel whose exhaustion is a distinct value that the theorems exclude.
* `dict` is an insertion-ordered association list; strings are lists of code points or Coq strings.
* Geometry uses Coq's real numbers in place of IEEE doubles: the theorems speak
  about the formulas in the code, not about rounding. The standard library's
  real-number axioms are listed by `Print Assumptions`.
* External libraries (hash functions, OCC booleans, gpg, file system) are
  function arguments of the model; the theorems hold for every such function.

## Plan per property

* **C01 Tokenizing always finishes, ending in one EOF** - Lexer_Model: the Lexer class as a state record + fuelled scan; prove fuel linear in the source length always suffices; EOF shape by induction on the token loop.
* **C02 Every token is the source text at its span** - Lexer invariant over _scan_token: lexeme = source slice; order of spans.
* **C03 INDENT and DEDENT tokens balance** - Refute in general with a 3-line witness; prove under 'every dedent returns to an open level'.
* **C04 String literals denote the string that was written** - Lexer string scanner against a separate quoting function; induction on the string.
* **C05 Integer literals denote the number that was written** - Number scanner against a separate digit printer; induction on digits.
* **C06 Parsing always finishes** - Parser_Model for the expression grammar, fuelled; prove fuel bound.
* **C07 Operator precedence and associativity are unambiguous** - Printer with minimal parentheses (independent spec) and parse . print = id.
* **C08 The language has no unbounded loop** - Statement parser on the WHILE token.
* **C09 Assignability laws** - Types_Model inductive types; reflexivity, common_type upper bound; transitivity refuted.
* **C10 Recursion checking finds exactly the recursive commands** - DFS of _check_recursion on an abstract call graph; soundness of each reported cycle and completeness.
* **C11 A checked program's values have the types the checker gave them** - Interp: refuted by witness; partial soundness for a fragment.
* **C12 Scoping: inner declarations never leak** - Scope chain model; context new_scope discipline.
* **C13 Every DSL program terminates** - Interp: fuel bound from AST sizes and recursion limit.
* **C14 Call depth is bounded and always restored** - Interp: invariant on call depth.
* **C15 A failed assertion means a failed execution** - Interp: refuted by witness (callee's failure dropped).
* **C16 Success iff something was emitted and all requirements held** - Interp: characterisation of execute.
* **C17 and/or short-circuit** - Interp: refuted by witness.
* **C18 Comprehensions are size- and depth-limited** - Interp: comprehension invariant.
* **C19 All statements of a command body are executed** - Interp: refuted by witness for the last expression statement; positive theorem for statements.
* **C20 Assigning in a loop updates the outer variable** - Interp: refuted by witness.
* **C21 Provenance signatures ignore line endings and only line endings** - Provenance normalisation on character lists; hash as an abstract injective-or-not function argument.
* **C22 Package validation detects every altered file** - Package model: manifest + file store; hash function abstract; validator as a function.
* **C23 A package just created validates** - Same model: refuted for sha512; proved for sha256 over histories.
* **C24 Manifest attachments are unique per path** - add_geometry_file step invariant.
* **C25 The signed digest covers everything but the signatures** - JSON value model with sorted-key canonical form.
* **C26 Each accepted signature is by the named signer** - Signing model; refuted by witness (second GPG signature).
* **C27 Assembly resolution applies each cutter exactly to its targets in priority order** - Resolver model with abstract geometry & boolean; fold specification.
* **C28 Resolution never loses a part silently** - Resolver: accounting theorem; staged refuted.
* **C29 Staged resolution reports what the stages reported** - Staged resolver; refuted / single-stage theorem.
* **C30 Datum lookup returns the last registration** - Datum registry state machine; refinement to a map.
* **C31 World transforms are never stale** - Kinematic chain state machine with caches over an abstract transform monoid; coherence invariant over all histories.
* **C32 Rigid transforms form a group** - 4x4 real matrices over Coq's R.
* **C33 Joint limits are respected** - Clamp over R.
* **C34 Saving and loading a mechanism preserves it** - Chain (de)serialisation as dict model.
* **C35 Interface registry indices agree with the registry** - InterfaceRegistry state machine, index invariant.
* **C36 STL binary round trip** - Byte-level STL model.
* **C37 Spatial queries miss nothing** - NTree model; completeness by induction on the tree build.
* **C38 Affine matrices compose and invert** - 4x4 real matrices; ring/field/trigonometry.
* **C39 Matrices are independent values** - Heap model of row lists; aliasing refuted, partial laws.
* **C40 Scaling and rotating about a center leave the center fixed** - R model of scale/rotate; scale refuted.
* **C41 Bounding boxes contain their figures** - R model; arcs refuted.
* **C42 Sampling hits the endpoints and unsample inverts sample** - R model of line/polyline sampling.
* **C43 Line intersection is sound and complete** - R model; soundness proved, completeness refuted by the denom tolerance.
* **C44 Point-in-figure tests are right** - R model; triangle proved; convex polygon and even-odd test refuted.
* **C45 Closest point on a line is closest** - R model; parameter refuted; distance proved.
* **C46 Splines interpolate and stay in the hull** - R model of De Casteljau, Cox-de Boor, Catmull-Rom; NURBS endpoint refuted.
* **C47 Cached figure properties are never stale** - Geometry cache state machine; surface cache refuted.
* **C48 Reversing a figure reverses its sampling** - R model; refuted/partial.

## All properties: status and where proved

The original plan above covered C01-C48. Where reading or proving showed that a
property is false of the code, its statement was narrowed to what holds for every
input, and the false part became a property of its own, refuted by a theorem with a
concrete witness ("refuted" below; "partial" in MANIFEST.json, as the status has no
value for a refutation).

<!-- generated: properties -->
* **C01 Tokenizing always finishes, ending in one EOF** - proved (Lex_Props). Termination for every text (fuel shown sufficient and immaterial); last token is the only EOF. CPython recursion limit for >~1000 consecutive newlines inside brackets is not modelled.
* **C02 Every token is the source text at its span** - proved (Lex_Props). Spans, positions, order, and completeness (nothing dropped).
* **C03 Every INDENT is closed by a DEDENT** - proved (Lex_Props). Every INDENT closed; balance iff counts agree. The converse direction (no stray DEDENT) is refuted in C63.
* **C04 String literals denote the string that was written** - proved (Lex_Props). Any spelling, three quote styles; every string has a spelling.
* **C05 Integer literals denote the number that was written** - proved (Lex_Props). Decimal, hex, binary. Underscores in decimal literals split the token (shown).
* **C06 Parsing always finishes** - proved (Parse_Props). parse is total on every token list; result independent of the recursion bound. CPython recursion limit not modelled. The TypeError escape is C66.
* **C07 Operator precedence and associativity are unambiguous** - proved (Parse_Props). grammar relation G and minimal-parentheses writer in Parse_Spec; proved for whole programs around the expression. if/match expressions (indented blocks) are outside G.
* **C08 Accepted programs have no while statement** - proved (Parse_Props). while_free is an inductive over the whole AST.
* **C09 Assignability laws** - proved (Types_Props). exact characterisation for every nesting; full transitivity is C68.
* **C10 Recursion checking finds exactly the recursive commands** - proved (Cycle_Props). graph-level model: the call graph is given; how calls are collected from the bodies is not part of this model.
* **C11 A checked program's values have the types the checker gave them** - refuted (Check_Props). REFUTED: a command declared `-> int` emits a string (a variable declared in a loop body survives into the next turn, while the checker resolves the name to the outer variable); parameter values are not checked; list elements carry the type of the first element.
* **C12 Scoping: blocks and expressions leave outer variables alone** - proved (Interp_Props). Exception made explicit in the statement: names bound by match patterns (see C76).
* **C13 Execution ends whenever no parameter default makes a keyword-only call** - proved (Interp_Props). Host built-ins and inline Python are assumed to return; the exception is C72.
* **C14 Call depth is bounded and always restored** - proved (Interp_Props). The limit is also shown exact for unbounded recursion.
* **C15 A failed requirement of the command means a failed execution** - proved (Interp_Props). Requirements of called commands: see C73.
* **C16 Success iff something was emitted and all requirements held** - proved (Interp_Props). 
* **C17 and/or compute the connective; a conditional evaluates only the chosen branch** - proved (Interp_Props). Short-circuiting does not hold: see C74.
* **C18 Comprehensions are size- and depth-limited** - proved (Interp_Props). 
* **C19 All statements of a command body are executed** - proved (Interp_Props). An expression ending a body is not a statement: see C75.
* **C20 Assigning in a loop updates the outer variable** - refuted (Interp_Props). REFUTED: `x = e` parses as a declaration in the loop scope; after any loop without assignment statements every outer variable is unchanged, and summing [1,2,3] gives 0.
* **C21 Provenance signatures ignore line endings and surrounding blank space, nothing else** - proved (Prov_Props). sha256 and str.isspace are parameters; strings with lone surrogates, on which encode() raises, are outside.
* **C22 Package validation detects every altered file** - proved (Pkg_Props). YAML, hashing and geometry_from_json are parameters; ill-typed manifests may raise instead of answering.
* **C23 A package just created validates** - proved (Pkg_Props). Assumes that YAML gives back what it was given and that geometry_from_json reads what geometry_to_json wrote.
* **C24 Manifest attachments are unique per path** - proved (Pkg_Props). 
* **C25 The signed digest covers everything but the signatures** - proved (Sign_Props). Ordinary text: no lone surrogates; string keys; float repr is injective and never looks like another JSON token.
* **C26 Signatures reported valid were accepted over the present manifest** - proved (Sign_Props). gpg and ssh-keygen are parameters. Which signer made it: see C103; earlier signatures overwritten: see C104.
* **C27 Assembly resolution applies each cutter exactly to its targets in priority order** - proved (Resolver_Props). For every geometry type and boolean engine (an arbitrary partial function).
* **C28 Resolution accounts for every part and error** - proved (Resolver_Props). A cutter whose target does not exist is C56 (refuted).
* **C29 Staged resolution is the stages in sequence** - proved (Resolver_Props). Warnings and retained cutters: C58 (refuted).
* **C30 Datum lookup returns the last registration** - proved (DReg_Props). Names shared by a file and its part_name: see C117 and C118.
* **C31 World transforms are never stale** - proved (Kin_Props). For arbitrary transforms and joints. Replacing an occupied frame and assigning joint.value directly: C59 (refuted). CPython's recursion limit and external datum frames are not modelled.
* **C32 Rigid transforms form a group** - proved (Kin_Props). Exact over the reals; rounding is not modelled. Euler angle extraction: C60 (refuted).
* **C33 Joint limits are respected** - proved (Kin_Props). NaN is outside the real-number model.
* **C34 Saving and loading a mechanism preserves it** - proved (Kin_Props). Excluded cases are C61 (refuted).
* **C35 Interface registry indices agree with the registry** - proved (Coll_Props). Histories that do not assign to fields of registered interfaces; see C108 for those.
* **C36 STL binary round trip** - proved (Stl_Props). Rounding to single and key rounding are parameters. Names beginning with "solid" together with huge numbers: see C128.
* **C37 Spatial queries miss nothing** - proved (Oct_Props). Real arithmetic; sampled curves are not modelled. See C133-C137.
* **C38 Affine matrices compose and invert** - proved (Xform_Props). Exact over the reals; transposed views included.
* **C39 Matrices are values unless a row list is handed on** - proved (Alias_Props). Real entries; indices 0..3 (others raise ValueError). See C140-C142 for programs that hand a row on.
* **C40 Rotation about a centre, mirroring and translation are isometries** - proved (Xform_Props). See Xform_Props.v.
* **C41 Bounding boxes contain their figures** - proved (Fig_Props). Partial arcs are C51 (refuted).
* **C42 Sampling hits the endpoints and unsample inverts sample** - proved (Fig_Props). Lines, polylines and arcs.
* **C43 Line intersection is sound and complete** - proved (Fig_Props). Segments below the tolerance: C52 (refuted).
* **C44 Point-in-figure tests are right** - proved (Fig_Props). False answers for polygons: C53 (refuted).
* **C45 Distances and closest points on a line** - proved (Fig_Props). inside=True points and params=True: C54 (refuted).
* **C46 Splines interpolate and stay in the hull** - proved (Spline_Props). Real arithmetic. B-splines with fewer than 10^12 spans; Catmull-Rom with alpha >= 0 and neighbours equal or at least 1e-12 apart (to the power alpha). See C138, C139.
* **C47 Cached properties describe the current figure** - proved (Cache_Props). BREP elements (OpenCASCADE) and the subclasses Polygon and Boolean are outside the model. The excluded histories are C143-C146.
* **C48 Reversing and translating figures** - proved (Fig_Props). Polylines and double reversal: C55 (refuted).
* **C49 Rotation accepts any nonzero axis** - refuted (Xform_Props). REFUTED: a non-unit axis raises AttributeError (xform.py:206 evaluates geom.geom.scale3).
* **C50 Scaling about a centre fixes the centre** - refuted (Xform_Props). REFUTED: geom.py:4141-4143 composes the two translations in the wrong order.
* **C51 Bounding boxes of partial arcs contain the arc** - refuted (Fig_Props). REFUTED: arcbbox uses five samples; the arc 0..100 degrees leaves its box at 90 degrees.
* **C52 Every crossing of two segments is found** - refuted (Fig_Props). REFUTED: two segments of length 0.04 crossing at right angles are reported as not meeting (denom^2 < epsilon).
* **C53 Polygon inside tests answer True for every interior point** - refuted (Fig_Props). REFUTED: isInsideConvexPolyXY triangulates as a strip and misses interior points; isinsidepolyXY counts a vertex crossing twice and reports the centre of the unit square as outside.
* **C54 linePointXY params and segment closest point** - refuted (Fig_Props). REFUTED: params is |1-u| instead of u; with inside=True the mirrored candidate is returned for points closer than about 1e-3 to the line.
* **C55 Reversal is an involution on every figure** - refuted (Fig_Props). REFUTED: a polyline becomes None (list.reverse() returns None) and an arc reversed twice stays reversed.
* **C56 A cutter whose target does not exist is reported** - refuted (Resolver_Props). REFUTED: a misspelt target_filter makes the cutter vanish with success=True and no message.
* **C57 The through flag is enforced** - refuted (Resolver_Props). REFUTED: the flag is never read; erasing it changes nothing.
* **C58 Staged results keep warnings and retained cutters, and apply each operation once** - refuted (Resolver_Props). REFUTED: ResolvedPart is rebuilt with empty lists; a stage name listed twice runs its operations twice.
* **C59 Direct edits of joints and frames take effect** - refuted (Kin_Props). REFUTED: no cache is invalidated; both leave a stale world transform.
* **C60 Euler angles round trip** - refuted (Kin_Props). REFUTED: to_euler_xyz extracts Rz*Ry*Rx angles but from_euler_xyz composes Rx*Ry*Rz; (45,0,45) is a witness away from gimbal lock.
* **C61 Saving and loading preserves every mechanism** - refuted (Kin_Props). REFUTED: to_dict skips GLOBAL_DATUM, so its frames are lost and children fall back to ORIGIN; the topological sort ignores an empty parent name and from_dict can raise ValueError.
* **C62 Tree queries** - proved (Kin_Props). get_chain_to_root assumes non-empty part names (an empty name ends the walk).
* **C63 No stray DEDENT** - refuted (Lex_Props). REFUTED: a line indented between two open levels ('a', '    b', '  c') yields two DEDENTs for one INDENT, without an error (lexer.py:204-207 pushes the level silently).
* **C64 Comments and strings do not affect block structure** - refuted (Lex_Props). REFUTED: after a leading /* */ comment, or a string containing a line break, at_line_start is still set, so an INDENT (and later a DEDENT) appears in the middle of the line.
* **C65 Names, reserved words and operators are recognised** - proved (Lex_Props). Names universally; reserved words and operators over the whole table of the reference.
* **C66 The only exceptions of the parser are parser errors** - refuted (Parse_Props). REFUTED: @meta(x=-"s") applies unary minus to a Python str while building the hint and lets TypeError escape.
* **C67 @native functions can be written** - refuted (Parse_Props). REFUTED: the lexer makes `native` a keyword token and the decorator parser demands an identifier, so every program that starts with @native is refused.
* **C68 Permitted assignments compose** - refuted (Types_Props). REFUTED: point2d accepts point and point accepts point3d, but point2d does not accept point3d.
* **C69 common_type finds a common type when there is one** - refuted (Types_Props). REFUTED: list<point2d> and list<point3d> both fit list<point>, yet common_type gives None.
* **C70 none fits every optional type** - refuted (Types_Props). REFUTED: OptionalTypeWrapper only asks the inner type, which refuses none.
* **C71 Every recursive command is named in a warning** - refuted (Cycle_Props). REFUTED: with calls 0->1, 0->2, 1->0, 2->1 only the cycle 0,1 is reported; 2, on the cycle 0,2,1, is never named.
* **C72 Every DSL program terminates** - refuted (Interp_Props). REFUTED: def f(x: int = f(y=1), y: int = 0) evaluates its default, which calls f again, before the depth counter is incremented, so no recursion limit stops it (in CPython: RecursionError escapes).
* **C73 A failed requirement in a called command means a failed execution** - refuted (Interp_Props). REFUTED: a requirement that fails in a called command is recorded in the callee context only and dropped; the caller reports success.
* **C74 and/or short-circuit** - refuted (Interp_Props). REFUTED: both operands are always evaluated first: `y != 0 and 10 // y > 1` raises ZeroDivisionError for y = 0.
* **C75 An expression statement is evaluated wherever it stands** - refuted (Interp_Props). REFUTED: the parser turns it into the block's final expression, which the interpreter never evaluates (replacing all of them changes no execution).
* **C76 Names bound by a match pattern are local to its arm** - refuted (Interp_Props). REFUTED: the pattern overwrites the variable in the current scope.
* **C77 Every run-time error is reported as a failed result** - refuted (Interp_Props). REFUTED: only RuntimeError is caught: `1 // 0` escapes as ZeroDivisionError, and so do AttributeErrors and TypeErrors.
* **C78 A default value does not depend on the caller** - refuted (Interp_Props). REFUTED: defaults are evaluated in the scope of the caller, so they see its local variables.
* **C79 Keyword arguments of a command call are honoured** - refuted (Interp_Props). REFUTED: they are dropped: for every call with a positional argument, removing all keyword arguments changes nothing.
* **C80 The result of a command can be used as a condition** - refuted (Interp_Props). REFUTED: the result is an EmitResult without is_truthy: every such condition raises AttributeError.
* **C81 Method calls can succeed** - refuted (Interp_Props). REFUTED: no method is ever registered: every method call fails.
* **C82 If expressions give the value of their block** - refuted (Interp_Props). REFUTED: selecting a block raises; only an if expression with no selected block has a value (none).
* **C83 Inline Python sees the innermost variable of each name** - refuted (Interp_Props). REFUTED: the namespace is filled so that the outermost binding wins.
* **C84 Integer and boolean expressions mean what they mean in mathematics** - proved (Interp_Props). 
* **C85 Accepted programs declare names before use** - proved (Check_Props). 
* **C86 Accepted programs do not run into undefined variables** - proved (Check_Props). The host's own operations (floats, geometry) are assumed not to report undefined DSL variables.
* **C87 A program with lexical, syntax or type errors is not run** - proved (Check_Props). 
* **C88 A return statement type-checks** - refuted (Check_Props). REFUTED: check() raises AttributeError on every return statement; it escapes from compile_and_run.
* **C89 Every accepted program is free of undefined variables** - refuted (Check_Props). REFUTED: accepted but failing: a default that mentions an earlier parameter, a type or built-in name used as a value, an undeclared name in a keyword argument of a command, a required parameter after a default one.
* **C90 Calls of commands have the right number of arguments** - refuted (Check_Props). REFUTED: the checker never compares the number of arguments of a command call; too few and too many are accepted and fail at run time.
* **C91 The checker accepts what the interpreter defines** - refuted (Check_Props). REFUTED: arithmetic on a parameter without annotation, `x: list<int> = []` and concatenation of two strings are rejected although they run.
* **C92 Recursion in the source is warned about** - proved (Check_Props). 
* **C93 Every recursive program is warned about** - refuted (Check_Props). REFUTED: a command named like a built-in that calls itself gets none; the interpreter then exceeds the recursion limit.
* **C94 Checker and interpreter agree on the built-ins they share** - proved (Check_Props). 
* **C95 Every built-in the checker knows exists** - refuted (Check_Props). REFUTED: 13 built-ins (close, closeC0, closeC1, cylindrical_surface, empty_region, empty_solid, is_empty, join, loft_surface, path, planar_surface, planet_gear_with_hub, shell) are accepted and always fail at run time.
* **C96 Every registered built-in can be used** - refuted (Check_Props). REFUTED: 13 registered built-ins (chamfer_edges, fillet_edges, select_*_edges, union_edges, ...) are unknown to the checker, so every program calling them is rejected.
* **C97 Accepted calls of built-ins have an acceptable number of arguments** - refuted (Check_Props). REFUTED: extra arguments are never rejected (sin(1.0, 2.0)), text_solid is accepted with three arguments but takes four; the TypeError escapes from compile_and_run.
* **C98 A created package validates whatever hash algorithm was requested** - refuted (Pkg_Props). REFUTED: the validator always computes SHA-256: with sha512 the intact package fails, for all contents.
* **C99 Additions keep a package valid** - refuted (Pkg_Props). REFUTED: with overwrite=True a file listed in another section becomes stale; metadata can override the hash; all calls succeed and validation fails.
* **C100 A failing save leaves the stored manifest alone** - refuted (Pkg_Props). REFUTED: the file is truncated before yaml.safe_dump raises RepresenterError: the manifest is lost.
* **C101 A failing add_geometry_file has no effect** - refuted (Pkg_Props). REFUTED: an unsupported category raises after the destination file was overwritten, which invalidates the package.
* **C102 The signed digest covers all text** - refuted (Sign_Props). REFUTED: a surrogate pair and the character it stands for (both accepted by YAML escapes) give the same digest, for every key.
* **C103 The reported signer made the signature** - refuted (Sign_Props). REFUTED: the name comes from the unsigned manifest entry: replacing every signer by any text leaves all statuses as they were.
* **C104 Adding a signature keeps earlier ones verifiable** - refuted (Sign_Props). REFUTED: all GPG signatures share manifest.sig.asc, and SSH file names keep 20 characters of the signer: the second overwrites the first.
* **C105 An untrusted-but-valid report is about a real signature** - refuted (Sign_Props). REFUTED: without allowed_signers any text file counts as a valid SSH signature of an untrusted signer.
* **C106 Verification notices altered package files** - refuted (Sign_Props). REFUTED: verification reads only the manifest and the signature files; the answer is the same whatever the other files hold.
* **C107 is_valid agrees with overall_status** - refuted (Sign_Props). REFUTED: one valid signature beside one of unknown method: is_valid is True, overall_status is ERROR.
* **C108 Lookups by part follow a renamed part** - refuted (Coll_Props). REFUTED: the indices keep the old part; after unregistering, looking up the old part raises KeyError.
* **C109 Assembly checks cover every pair once** - proved (Coll_Props, Fits_Props). The geometric test is a parameter.
* **C110 Interfaces with parallel axes that meet are found** - proved (Coll_Props). Real arithmetic.
* **C111 Interfaces that meet are found** - refuted (Coll_Props). REFUTED: for non-parallel axes only the distance of the centers is compared with the radii: long cylinders crossing away from their centers are missed.
* **C112 Compatibility is symmetric** - refuted (Coll_Props). REFUTED: the module tolerance is relative to the first gear's module.
* **C113 A detector uses the registry it was given** - refuted (Coll_Props). REFUTED: an empty registry is false (it has __len__) and is replaced by a new one, so later registrations are not seen.
* **C114 Excuses depend on where the parts are** - refuted (Coll_Props). REFUTED: the transforms are not applied to the interfaces; the verdict is the same for all placements.
* **C115 Planetary gearbox interfaces** - proved (Coll_Props). Real arithmetic.
* **C116 Interfering planets are reported** - refuted (Coll_Props). REFUTED: every two gears of one module that touch are excused, also 6 planets of 36 teeth around a sun of 18.
* **C117 Registering a datum leaves other sources alone** - refuted (DReg_Props). REFUTED: a loaded file and the part it names share one object: a datum registered for the part shows up in the file.
* **C118 Looking up a file does not undo a registration** - refuted (DReg_Props). REFUTED: loading a file replaces whatever was registered under its part_name.
* **C119 Registering a datum adds to its source** - refuted (DReg_Props). REFUTED: registering before the first lookup marks the source as loaded: the file is never read.
* **C120 A failed lookup has no lasting effect** - refuted (DReg_Props). REFUTED: a failed lookup registers an empty source, which is listed and never searched for again.
* **C121 A part's datums can be registered** - refuted (DReg_Props). REFUTED: it iterates over the keys of the datum dictionary and raises AttributeError for every part that has datums.
* **C122 Datums move with their part** - proved (Datum_Props). Real arithmetic; composition for datums without vectors of other kinds (see C123).
* **C123 All vectors of a datum move as directions** - refuted (Datum_Props). REFUTED: vectors other than those of its kind come back with w = 1, so the next translation is added to them.
* **C124 Placement matrices of datums are rigid** - proved (Datum_Props). Real arithmetic. Frames: see C125.
* **C125 Placement matrices of frames are rigid** - refuted (Datum_Props). REFUTED: axes are neither required nor made orthogonal or of unit length.
* **C126 Duplicate datums are reported** - proved (Datum_Props). Within epsilon; real arithmetic.
* **C127 Parallel datums are reported** - refuted (Datum_Props). REFUTED: the dot product of vectors that need not have unit length is compared with 1.
* **C128 Binary STL files are recognised whatever the name** - refuted (Stl_Props). REFUTED: a name beginning with "solid" and a number whose bytes spell "facet" make the file read as an empty text file.
* **C129 STL text round trip** - proved (Stl_Props). Formatting and parsing of one number are parameters; names with the word facet: see C132.
* **C130 Triangle normals and the triangle view** - proved (Mesh_Props). Real arithmetic.
* **C131 Only faces of zero area are left out** - refuted (Mesh_Props). REFUTED: triangles with twice the area at most 5e-6 (sides of 0.002) and all faces with more than three corners are dropped silently.
* **C132 The part name does not affect the triangles in a text STL** - refuted (Stl_Props). REFUTED: the name is copied into the file unescaped and can contain facets.
* **C133 A query on an empty tree finds nothing** - refuted (Oct_Props). REFUTED: it raises AttributeError.
* **C134 A query that raises can be repeated** - refuted (Oct_Props). REFUTED: when the centre lies outside the elements the first query raises and the next returns nothing, because the tree is marked as built before it is.
* **C135 Queries find points** - refuted (Oct_Props). REFUTED: the tree's own box does not include the margin of the points' boxes, so points at its border can be missed.
* **C136 A tree does not share its list with the caller** - refuted (Oct_Props). REFUTED: the constructor keeps the caller's list and addElement extends it in place; elements the caller appends are in the tree but never found.
* **C137 The centre of a tree with elements can be recomputed** - refuted (Oct_Props). REFUTED: a tree that got its elements by addElement has no bounding box before its first query: AttributeError.
* **C138 NURBS curves end at the last control point** - refuted (Spline_Props). REFUTED: with an interior knot every non-empty span counts at the last parameter: the default quadratic through x = 0,1,2,3 ends at x = 2.5.
* **C139 Closed B-splines can be evaluated** - refuted (Spline_Props). REFUTED: the knot vector is too short for the extended control points: every closed B-spline of degree two or more raises IndexError.
* **C140 A copied matrix is independent** - refuted (Alias_Props). REFUTED: Matrix(A) of an untransposed A keeps A's row lists: B = Matrix(A); B.set(0,0,5) sets A too.
* **C141 A row set from another matrix is copied** - refuted (Alias_Props). REFUTED: setrow keeps the list that getrow hands out, so A.set then changes B.
* **C142 A column can be set from a row of the same matrix** - refuted (Alias_Props). REFUTED: the list is read while it is being overwritten: with row 0 = 1 2 3 4, A.setcol(1, A.getrow(0)) stores 1 1 3 4.
* **C143 Surfaces follow changes** - refuted (Cache_Props). REFUTED: the cached triangulation is not cleared: after g.surface(); g.translate(d), g.surface() is the surface of the old figure (all figures other than solids).
* **C144 Bounding boxes of solids follow changes** - refuted (Cache_Props). REFUTED: the box is recomputed only if there is none: after g.bbox; g.translate(d), g.bbox is the old box.
* **C145 Assignments to elem are seen** - refuted (Cache_Props). REFUTED: assigning elem does not mark the object for update.
* **C146 A failing query keeps failing** - refuted (Cache_Props). REFUTED: the update flag is cleared first: the second query returns the length of the previous figure.
* **C147 Metadata helpers change only their own namespace and store what they are given** - proved (Meta_Props). Whole helpers over JSON-like data; aliasing between argument and stored value is not modelled.
* **C148 Only allowed enumeration values are ever stored** - proved (Meta_Props). None is accepted: see C151.
* **C149 Applying a meta hint twice is applying it once** - proved (Meta_Props). List fields are C152.
* **C150 The metadata transform is idempotent and keeps meaning** - proved (Meta_Props). float(float) and str(str) are assumed to be identities (honest).
* **C151 Stored operation kinds are kinds** - refuted (Meta_Props). REFUTED: kind=None passes _validate_enum and is stored as None.
* **C152 Reapplying any hint changes nothing** - refuted (Meta_Props). REFUTED: tags and list fields (bolt_patterns, datums, surfaces, keepouts) are appended again each time.
* **C153 Hints the transform accepts are accepted at run time** - refuted (Meta_Props). REFUTED: the two joint_kind vocabularies are disjoint: all seven kinds the transform accepts raise ValueError when applied, all four runtime kinds are reported as errors; the feature_kind vocabularies share only pocket.
* **C154 Entity ids are stable** - proved (Meta_Props). 
* **C155 Reading metadata does not modify the object** - refuted (Meta_Props). REFUTED: it stores a root dictionary (schema, tags, layer) into the solid, even one that had no metadata.
* **C156 A failing assembly helper adds nothing** - proved (Meta_Props). An empty assembly namespace may have been created (add_bolt_pattern with a bad number); set_operation is C157.
* **C157 A failing set_operation changes nothing** - refuted (Meta_Props). REFUTED: kind (and the fields before the failing one) are already stored: set_operation(s, kind='union', priority='x') raises and leaves kind='union'.
* **C158 Tags stay distinct and in order** - proved (Meta_Props). 
* **C159 A run computes what the program says** - proved (Ref_Props). The reference semantics is a separate inductive definition (Interp_Ref.v). Not in the fragment: floats, strings, geometry, native code, assignment to an outer variable, match, lambda, nested comprehensions, truth values returned by a command (see C80: they raise when used as conditions).
* **C160 Volume and closedness of a solid** - proved (Solid_Props). Over the reals; BREP fallback not modelled.
* **C161 Motions keep a solid's volume, scaling multiplies it** - proved (Solid_Props). For scaling both volumes are assumed defined (shrinking may merge corners within the tolerance).
* **C162 Surface area** - proved (Solid_Props). 
* **C163 Normals stay unit and agree with the faces** - proved (Solid_Props). Non-uniform factors up to 1e9 and not closer than the tolerance unless equal.
* **C164 Bounding boxes of surfaces and solids** - proved (Solid_Props). 
* **C165 Building a surface triangle by triangle** - proved (Solid_Props). 
* **C166 surf2lines draws each edge once** - proved (Solid_Props). 
* **C167 Line and plane** - proved (Solid_Props). 
* **C168 The volume of an accepted solid does not depend on where it is** - refuted (Solid_Props). REFUTED: issolidclosed counts sides without regard to direction, so a tetrahedron with one face turned round is accepted; its volume is 1/6 and after translation by (1,0,0) 1/2.
* **C169 Scaling a surface about a centre fixes the centre** - refuted (Solid_Props). REFUTED: the translations are applied the wrong way round: with k=2 about (1,0,0) the vertex (1,0,0) moves to (3,0,0).
* **C170 Scaling keeps faces outward** - refuted (Solid_Props). REFUTED: factor -1 leaves the index order alone, so the signed volume becomes negative (inside out).
* **C171 Two scale factors may be given** - refuted (Solid_Props). REFUTED: with sz omitted the default False is divided by: ZeroDivisionError for scalesurface(s, 2, 3).
* **C172 issurface(fast=False) checks the face indices** - refuted (Solid_Props). REFUTED: the filter keeps only non-integers, so face (0,1,7) of a 4-vertex surface passes and surfacearea raises IndexError.
* **C173 linePlaneIntersect accepts a planar basis** - refuted (Solid_Props). REFUTED: raises ValueError for every such argument.
* **C174 inside=False intersects the whole plane** - refuted (Solid_Props). REFUTED: the triangle test is applied regardless; (5,5,0) is not found for the unit triangle.
* **C175 A face added has three different corners** - refuted (Solid_Props). REFUTED: a triangle smaller than the tolerance becomes face (0,0,0).
* **C176 Normals of an incrementally built surface fit its faces** - refuted (Solid_Props). REFUTED: a shared vertex keeps the first triangle's normal.
* **C177 A box is closed and has the requested size** - proved (Prim_Props). A centre within the tolerance of the origin is ignored by the code (box placed at the origin); the statement says so. Over the reals; BREP attachment not modelled.
* **C178 A cone, frustum or cylinder is closed and outward** - proved (Prim_Props). The mesh path (no OCC). The smallness condition is needed: see C179.
* **C179 Radii and height above epsilon are enough for conic** - refuted (Prim_Props). REFUTED: conic(0.0005, 0.0005, 0.0005, angr=30) raises ValueError (the facets' cross products are below the tolerance), and conic(0.0005, 0, 0.0005, angr=30) returns a solid without side faces on which volumeof raises ValueError, though both are 100 times the tolerance.
* **C180 Adaptive segment counts keep the requested accuracy** - proved (Prim_Props). Over the reals.
* **C181 Spheres and spheroids are closed meshes on the surface, whatever was built before** - proved (Sphere_Props). Over the reals; a centre within the tolerance of the origin is ignored. Merging of midpoints closer than the tolerance is part of the model.
* **C182 The vertex table never stores a point twice** - refuted (Sphere_Props). REFUTED: the hash key is the coordinates printed with two decimals, so (0.004999,0,0) and (0.005001,0,0), 2e-6 apart, have different keys and are both stored.
* **C183 A dodecahedron is closed and regular in volume** - proved (Sphere_Props). Over the reals.
* **C184 The dodecahedron fits the sphere it is asked for** - refuted (Sphere_Props). REFUTED: for every d > 0 two vertices are farther apart than d (the circumscribed diameter is 1.07*d), and all vertices lie at or above the given centre's z.
* **C185 Extruding a surface closes it over its outline** - proved (Extr_Props). 
* **C186 Every square can be extruded to a closed box** - refuted (Extr_Props). REFUTED: the walls are dropped whenever chord times distance is below the tolerance (an area compared with a length tolerance): a square of side 0.001 extruded by 0.001 has no wall, is not a valid solid and volumeof raises ValueError.
* **C187 A loft surface joins two loops by a band open exactly along them** - proved (Extr_Props). 
* **C188 A loft solid is closed** - refuted (Extr_Props). REFUTED: it consists of the band alone, without lids: for all loops as in C187 issolidclosed is False and volumeof raises ValueError.
* **C189 Extra arguments of solid() land in their own slots** - proved (Extr_Props). 
* **C190 An empty material or boundary argument keeps its place** - refuted (Extr_Props). REFUTED: the slot is chosen by emptiness, so the construction becomes the material (every primitive calls solid(surfaces, [], ['procedure', call])) and surface(v, n, f, [], holes) raises TypeError.
* **C191 Solids survive a round trip through the geometry JSON document** - proved (GJson_Props). Dictionaries are objects in a heap, so sharing is modelled. Bounding boxes and sampled polylines are not modelled.
* **C192 Sketches and stand-alone surfaces survive a round trip when no solid is in the list** - proved (GJson_Props). Reals for floats.
* **C193 Saving leaves metadata alone except for ids and a missing layer** - proved (GJson_Props). 
* **C194 Surface boundaries and holes survive a round trip** - refuted (GJson_Props). REFUTED: _serialize_surface writes vertices, normals and faces only, so every loaded surface has empty boundary and holes (proved); extruding a loaded surface then makes no side walls.
* **C195 A solid's material and construction data survive a round trip** - refuted (GJson_Props). REFUTED: The second list, which solid() documents as material, is read as a list of voids: ['steel'] comes back as [[]] (proved), a number raises TypeError (proved), and the third list leaves no trace in the document (proved). Since the primitives' construction record lands in the second list (C190), every saved primitive comes back with two empty voids.
* **C196 Everything that was saved is loaded** - refuted (GJson_Props). REFUTED: If there is a solid, sketches and stand-alone surfaces are dropped; if there is a sketch, surfaces are; and a surface and its translated copy, which has a copy of its metadata and so its entityId, are saved as one entry (setdefault): the second is lost. Witnesses proved.
* **C197 Sketch elements come back as they were** - refuted (GJson_Props). REFUTED: Lines lose their z coordinate, reversed arcs come back forwards (arc() overwrites the orientation it is given), points vanish, and a list with a nested list of two lines raises TypeError. Proved.
* **C198 Saving is read-only** - refuted (GJson_Props). REFUTED: A solid's layer is written into its surfaces on the first save; when the solid moves to another layer and is saved again its surfaces stay on the old one. A surface used by two solids gets a new id at the second use, and the first entry, which shares the metadata dictionary, no longer has the id of its metadata. Witnesses proved.
* **C199 Design constraints pass exactly within tolerance** - proved (Constr_Props). 
* **C200 A tolerance of zero can be met** - refuted (Constr_Props). REFUTED: the comparison is strict, so a zero tolerance never passes although the other types accept it.
* **C201 A zero axis is refused** - refuted (Constr_Props). REFUTED: a zero axis gives NaN, min(1.0, NaN) is 1.0, and every datum passes.
* **C202 TANGENT_TO_CIRCLE means touching the circle** - refuted (Constr_Props). REFUTED: the radius is required but never used: any line perpendicular to the radial direction passes, whatever its distance.
* **C203 Every constraint type can be satisfied** - refuted (Constr_Props). REFUTED: ON_CIRCLE, IN_PLANE, MIN_DISTANCE and NO_INTERFERENCE are not implemented and always fail.
* **C204 Angle helpers** - proved (Constr_Props). 
* **C205 Mate.evaluate judges the position against the limits** - proved (Mate_Props). 
* **C206 satisfied means no limit is violated** - refuted (Mate_Props). REFUTED: velocity and effort violations are listed but never change satisfied or error.
* **C207 Mates survive serialization** - proved (Mate_Props). metadata is modelled as a dictionary of numbers; axis lists as lists of numbers
* **C208 degrees_of_freedom is between 0 and 6** - refuted (Mate_Props). REFUTED: it is -1 exactly for GEAR, RACK_PINION and CAM.
* **C209 Coupled motion** - proved (Mate_Props). 
* **C210 Reversal and the documented screw** - refuted (Mate_Props). REFUTED: it moves 1.0, and a screw with a pitch ignores coupling_reverse, coupling_ratio and coupling_offset.
* **C211 Coincidence is distance and alignment** - proved (Mate_Props). For the remaining mixed pairs (such as point and axis) only the distance of the origins is compared.
* **C212 Coincidence of planes is symmetric** - refuted (Mate_Props). REFUTED: the distance is measured along the first normal only; two planes 1 degree apart are coincident one way round and not the other.
* **C213 Bolt circle alignment is sound** - proved (Mate_Props). 
* **C214 An expected angular offset can be given** - refuted (Mate_Props). REFUTED: the offset itself is counted as the error (the chord 2 r sin(offset/2)): the documented 45 degree example, and a rotation by exactly one hole spacing, are refused.
* **C215 Assemblies stay consistent** - proved (Asm_Props). 
* **C216 What an assembly accepts** - proved (Asm_Props). 
* **C217 A refused add_part changes nothing** - refuted (Asm_Props). REFUTED: with a yapCAD Matrix as transform it raises AttributeError (Matrix has no copy method) after the part was added; the part has no transform, so its datums raise KeyError and its name is taken.
* **C218 Validation judges constraints in place** - proved (Asm_Props). 
* **C219 Numpy transforms move parts** - refuted (Asm_Props). REFUTED: Matrix(ndarray) is the identity, so arrays, and every imported transform, move nothing.
* **C220 validate_and_raise raises AssemblyError** - refuted (Asm_Props). REFUTED: it reads cr.message, which ConstraintResult does not have, and raises AttributeError instead.
* **C221 A name listed as failed has a failed result** - refuted (Asm_Props). REFUTED: constraints of the same name overwrite each other's result.
* **C222 Degrees of freedom of parts** - proved (Asm_Props). 
* **C223 Importing transforms** - proved (Asm_Props). 
* **C224 Degrees of freedom of any assembly** - refuted (Asm_Props). REFUTED: any other mate type raises AttributeError: the code names MateType.FLUSH, which does not exist.
* **C225 A failed import changes nothing** - refuted (Asm_Props). REFUTED: earlier parts have already been updated when a later one is faulty; unknown names are skipped silently.
* **C226 Solved face-to-face mates touch** - proved (Solver_Props). 
* **C227 Solved concentric mates share their axis** - proved (Solver_Props). 
* **C228 Solved REVOLUTE and PARALLEL mates align directions (cosine at least 0.9999)** - proved (Solver_Props). 
* **C229 PARALLEL mates are aligned to the solver's angle tolerance** - refuted (Solver_Props). REFUTED: directions (0,0,1) and (1,0,100), 0.57 degrees apart, are reported solved with the identity transform (the cut-off is cosine 0.9999, about 0.81 degrees).
* **C230 Solved PERPENDICULAR mates are at a right angle** - proved (Solver_Props). 
* **C231 DISTANCE mates translate to the first datum plus the offset** - proved (Solver_Props). 
* **C232 DISTANCE mates put the second datum at the offset** - refuted (Solver_Props). REFUTED: the second datum is not looked at: with its origin 5 above its part's origin an offset of 2 leaves it 7 away.
* **C233 ANGLE mates turn about the first datum's direction** - proved (Solver_Props). 
* **C234 ANGLE mates put the two directions at the mate's angle** - refuted (Solver_Props). REFUTED: the second datum is not looked at: two parallel planes stay parallel whatever the angle.
* **C235 RIGID mates line up frames** - refuted (Solver_Props). REFUTED: frames have no normal, so +Z is used for both: the solved frames end up perpendicular.
* **C236 A mate axis keeps position and rigidity** - proved (Solver_Props). 
* **C237 Mate axes X and Y** - refuted (Solver_Props). REFUTED: for every motion they send it to the opposite axis (the matrices are transposed).
* **C238 Mates stay satisfied under a mate axis** - refuted (Solver_Props). REFUTED: with '-Z' the part is turned about its own origin, so a COINCIDENT datum away from that origin no longer touches.
* **C239 The solver's cache is invisible to consistent callers** - proved (Solver_Props). 
* **C240 solve_mate is for the parent position given** - refuted (Solver_Props). REFUTED: a second call with another parent returns the first parent's answer: the cache key is the mate's name and the axis.
* **C241 solve_mate is for the current datums** - refuted (Solver_Props). REFUTED: after a datum was moved in the registry the old transform is returned.
* **C242 solve_mate_chain composes along a chain** - proved (Solver_Props). 
* **C243 solve_mate_chain follows part_a** - refuted (Solver_Props). REFUTED: two children of the same base: the second is placed relative to the first child.
* **C244 solve_all answers each mate** - proved (Solver_Props). 
* **C245 validate_transform accepts motions and little else** - proved (Solver_Props). 
* **C246 What the solver can solve** - proved (Solver_Props). 
* **C247 compute_flush_transform meets its contract** - proved (Solver_Props). 
* **C248 compute_concentric_transform and compute_parallel_transform** - proved (Solver_Props). 
* **C249 FaceToFaceMate computes transforms** - refuted (Solver_Props). REFUTED: it never does: MateType has no member ALIGNED, so line 184 raises AttributeError for every constraint (and validate, which catches only KeyError and ValueError, lets it through).
* **C250 evaluate_path3d_at_t follows the path** - proved (Path_Props). 
* **C251 Tangents are the direction of motion** - proved (Path_Props). 
* **C252 Sub-paths are the part of the path between two parameters** - proved (Path_Props). 
* **C253 Lengths add up** - proved (Path_Props). 
* **C254 parameter_to_length answers on [0, 1]** - refuted (Path_Props). REFUTED: at t = 0 it raises ValueError for every path (the sub-path from 0 to 0 is refused).
* **C255 length_to_parameter inverts parameter_to_length** - refuted (Path_Props). REFUTED: on segments of lengths 1 and 3 the length 1 becomes the parameter 1/4, whose length is 1/2: one conversion is by arc length, the other by segment.
* **C256 The conversions are inverse on even paths** - proved (Path_Props). 
* **C257 Parameters outside [0, 1] are refused** - refuted (Path_Props). REFUTED: they are clamped: t = 2 gives the end point, and the sub-path from 1 to 2 is empty, without error.
* **C258 Segments tile the element** - proved (Manu_Props). 
* **C259 Tabs go where the cut points say** - proved (Manu_Props). 
* **C260 The assembly graph lists all mates** - refuted (Manu_Props). REFUTED: the entry of a segment is copied before its successor exists, so it names the predecessor only: for one cut the first segment's entry is empty although it mates with the second.
* **C261 connector_type is as documented** - refuted (Manu_Props). REFUTED: cuts at 0.3 ('b') and 0.6 ('none'): the last segment is 'female' though its only joint has a separate connector.
* **C262 A cut point's connector_length is used** - refuted (Manu_Props). REFUTED: it is never read: the result is the same whatever it is, and the length is always three times the larger side of the profile.
* **C263 Connector ids are unique** - refuted (Manu_Props). REFUTED: the id has the cut parameter in whole percent: cuts at 0.101 and 0.105 both give e_conn_10.
* **C264 Segmentation keeps the material** - proved (Manu_Props). 
* **C265 compute_optimal_cuts** - proved (Manu_Props). 
* **C266 Optimal cuts keep segments under the maximum** - refuted (Manu_Props). REFUTED: on straight segments of lengths 1 and 9 with maximum 5 the last piece is 6 long: the parameter is not proportional to length.
* **C267 Connector profiles** - proved (Manu_Props). 
* **C268 Interior connectors are centred on the cut** - proved (Manu_Props). 
* **C269 Interior connectors span the cut on every path** - refuted (Manu_Props). REFUTED: on straight segments of lengths 1 and 9 the connector of length 1 for the cut at x = 1 runs from x = 0.1 to 0.3: a fifth of the length, short of the cut.
* **C270 Terminal connectors continue the path** - proved (Manu_Props). 
* **C271 Ring spines and attachment points** - proved (Manu_Props). 
* **C272 Closed rings are cut without loss** - refuted (Manu_Props). REFUTED: with exact half spaces a square ring cut at 3/4 loses every point outside its first side (x + y > 1): a piece longer than half a turn is cut by two planes that overlap on the far side.
* **C273 Ring cuts that avoid holes** - proved (Manu_Props). 
* **C274 Ring cuts always avoid the holes** - refuted (Manu_Props). REFUTED: when no place is far enough the evenly spaced cuts are returned silently, possibly through a hole (circumference 100, hole at 180 degrees, distance 60).
* **C275 Ring segments keep to the maximum length** - refuted (Manu_Props). REFUTED: circumference 100, maximum 50, hole at 180 degrees, distance 5: the cut moves to 0.5505 and a piece is 55.05 long.
* **C276 Line and arc intersections** - proved (Isect_Props). 
* **C277 inside=True keeps to the segment** - refuted (Isect_Props). REFUTED: the segment (0,0)-(1,0) and the unit circle: the reported point is (-1,0), which is not on the segment, and (1,0), which is on both, is not reported.
* **C278 Intersections are exact to epsilon** - refuted (Isect_Props). REFUTED: a line of length 20 half an epsilon outside the unit circle raises ValueError; a line of length 1e-4 that is 0.99 from the centre reports one point, 2000 epsilon off the circle.
* **C279 Parameters and segments of arcs** - proved (Isect_Props). 
* **C280 Arcs that end at 360 degrees, whole circles** - refuted (Isect_Props). REFUTED: for the arc 180-360 the end point's parameter is -1; segmentarc(circle, 0, 1) is an arc of zero extent at the start point.
* **C281 Arc and arc intersections** - proved (Isect_Props). 
* **C282 All intersections of arcs and their parameters** - refuted (Isect_Props). REFUTED: circles of radius 5/4 with centres 3/2 apart meet in two points, one is reported; the second arc's parameter is computed with the first arc's end: (3,4) on the arc 280-100 gets -19/18.
* **C283 Tangent lines of circles** - proved (Isect_Props). 
* **C284 No tangents gives False** - refuted (Isect_Props). REFUTED: it raises ValueError for every such pair.
* **C285 Inside test of circles and arcs** - proved (Isect_Props). 
* **C286 Inside an open arc means on it** - refuted (Isect_Props). REFUTED: a point half the radius from the centre is accepted: the whole sector counts.
* **C287 Sampling a geometry list** - proved (Glist_Props). 
* **C288 Points in a sampled list** - refuted (Glist_Props). REFUTED: A point at the start (u=0) or end (u=1) makes sample raise ZeroDivisionError; the empty list samples to None.
* **C289 Slicing a geometry list** - proved (Glist_Props). 
* **C290 Slices that meet a joint** - refuted (Glist_Props). REFUTED: The slice then contains an element of length 0 at its end (start), so sampling the slice at 1 (0) raises ZeroDivisionError.
* **C291 Slicing a polyline** - proved (Glist_Props). 
* **C292 Slices over the seam, whole polygons and reversed slices** - refuted (Glist_Props). REFUTED: segment(polygon,0,1) is two equal points; on an open polyline u2 < u1 always raises TypeError (deepcopy(a).reverse() is None); on a polygon with u1 > 1-epsilon the call recurses for ever.
* **C293 The parameter of a point of a polyline** - proved (Glist_Props). 
* **C294 Points on an open polyline** - refuted (Glist_Props). REFUTED: The start point is reported as not on it (parameter 0.0 == False), and points on the extension of the first or last edge are reported as on it.
* **C295 Intersections of a line and a polyline** - proved (Glist_Props). 
* **C296 Short polylines and pairs of polylines** - refuted (Glist_Props). REFUTED: A polyline of three points is never reported to intersect anything (len(lines) > 2); intersectXY of two polylines with params=True returns one list twice, with the parameters of both taking turns, and the first ones are not advanced by the edges passed.
* **C297 Analytic surfaces: constructors and points** - proved (ASurf_Props). 
* **C298 Analytic surfaces: normals** - proved (ASurf_Props). 
* **C299 The normal of a cone** - refuted (ASurf_Props). REFUTED: On every cone, at every point, cone_surface_normal (documented "outward-pointing") points towards the axis and is opposite to d/du x d/dv.
* **C300 Tessellated surfaces** - proved (ASurf_Props). 
* **C301 Spline surfaces** - proved (ASurf_Props). 
* **C302 The far edges of a clamped spline surface** - refuted (ASurf_Props). REFUTED: At the end of a clamped knot vector of degree >= 1 all basis functions vanish (0/0 terms are dropped), so every point of the far edge evaluates to the first control point; a bilinear patch at (1,1) gives its first corner, and tessellating it folds the last row and column back there.
* **C303 Moving, turning, mirroring and scaling surfaces** - proved (ASurf_Props). 
* **C304 Patches of moved surfaces** - refuted (ASurf_Props). REFUTED: transform_topology_graph leaves the reference direction of cylinders, cones and tori: after a quarter turn a unit cylinder evaluates to points of its axis. Read back, a turned plane gets new in-plane axes, so a turned rectangle is not turned; scaling by 2 does not change the parameter ranges, so a scaled cylinder keeps its height.
* **C305 Storing surfaces** - proved (ASurf_Props). 
* **C306 Which interfaces fit** - proved (Fits_Props). 
* **C307 When a shell is closed** - proved (Brep_Props). 
* **C308 Shells that only claim to be closed** - refuted (Brep_Props). REFUTED: A single face that uses each edge twice is a closed shell; so is a shell without faces or whose faces are not in the graph (add_shell accepts it with closed=True); a shell refused with ShellClosureError stays in the graph, says closed=True, and its faces name it as their shell.
* **C309 Who borders whom** - proved (Brep_Props). 
* **C310 Who borders whom, out of order** - refuted (Brep_Props). REFUTED: An edge added before its vertices is never listed at them; an edge added twice is listed twice; the face of a seam edge is listed twice.
* **C311 Adding shells and solids** - proved (Brep_Props). 
* **C312 Voids around bodies** - refuted (Brep_Props). REFUTED: Only the centre of a void's bounding box is tested: with exact tests, two concentric boxes are accepted with the outer shell strictly inside its void. A refused solid stays in the graph and its shells name it.
* **C313 Storing a topology graph** - proved (Brep_Props). 
* **C314 What a stored graph loses** - refuted (Brep_Props). REFUTED: vertex_edges and edge_faces are empty for everything; every edge has sense True and the default tolerance; every shell is "outer", voids included; a graph with an arc edge without bulge and centre cannot be read back (ValueError).
* **C315 Drawing edges** - proved (Brep_Props). 
* **C316 Drawing arcs by bulge, clockwise arcs, circles** - refuted (Brep_Props). REFUTED: An arc given by its bulge misses its ends unless 2 bulge^2 = 1 (the centre is computed from the middle of the arc by radius - height). The orientation of a centre arc is ignored (arc() overwrites it): the clockwise quarter from (0,1) to (1,0) about the origin passes (-1,0). Circle, B-spline and NURBS edges are drawn as chords.
* **C317 Moving a topology graph** - proved (Brep_Props). 
* **C318 What stays behind** - refuted (Brep_Props). REFUTED: TopologyGraph.transform leaves circle centres, B-spline control points and all surfaces where they were; scaling a solid leaves the radii of circle edges; mirroring leaves the bulge, so an arc mirrored in the line through its ends does not change sides.
* **C319 What hints are normalised to** - proved (Hint_Props). 
* **C320 The native verdict** - proved (Accept_Props). 
* **C321 Passing without meeting the criteria** - refuted (Accept_Props). REFUTED: the native back end passes over a criterion whose metric is missing, whose limit is written limit_mm or whose comparison is unknown; calculix and fenics pass any value for "==" and "~=", which the schema allows; fenics stops at the first missing metric, so the same criteria in another order are failed or pending
* **C322 The verdict of the solver back ends** - proved (Accept_Props). 
* **C323 The reports of the native back end** - proved (Accept_Props). 
* **C324 Reports that contradict the verdict** - refuted (Accept_Props). REFUTED: an equality that does not hold fails the analysis but is not among the failed criteria; a metric found only under the name with dots fails the analysis while its result has neither value nor passed
* **C325 Validating an analysis plan** - proved (Plan_Props). 
* **C326 Validating an analysis result** - proved (Plan_Props). 
* **C327 The results kept in a package** - proved (Plan_Props). 
* **C328 Results of an earlier run** - refuted (Plan_Props). REFUTED: a run without metrics (as after an error) keeps the metrics of an earlier run in the entry, under the new status and timestamp; so do artifacts, notes and summary
* **C329 Watertight surfaces** - proved (GCheck_Props). 
* **C330 A watertight surface encloses a volume** - refuted (GCheck_Props). REFUTED: a surface without faces, a single quadrilateral, any triangle listed twice and a tetrahedron with one face turned round are all accepted without a warning
* **C331 Oriented faces and closed polygons** - proved (GCheck_Props). 
* **C332 Consistent orientation** - refuted (GCheck_Props). REFUTED: a closed tetrahedron with every side once in each direction is rejected (as is any closed solid that has a face looking away from its first one), and two triangles that run along their common side in the same direction are accepted
* **C333 The mesh centroid is the centre of mass** - proved (Meas_Props). Over the reals; attached BREP data (OCC) left out.
* **C334 The centroid moves with the solid** - proved (Meas_Props). A displacement below the tolerance is ignored by translatesurface and leaves the centroid where it was.
* **C335 The centroid lies within the body** - proved (Meas_Props). 
* **C336 The centroid does not depend on order or orientation** - proved (Meas_Props). 
* **C337 Tetrahedra, and bodies put together** - proved (Meas_Props). 
* **C338 Reports of volumes and areas** - proved (Meas_Props). 
* **C339 Reports of masses** - proved (Meas_Props). 
* **C340 Reports of bounding boxes** - proved (Meas_Props). 
* **C341 Reports of centroids of assemblies** - proved (Meas_Props). 
* **C342 A check measures what it is asked to measure, in the units asked for** - refuted (Meas_Props). REFUTED: whatever the units, the number is the one in cubic millimetres (only the key changes); the entities are read and ignored, and with more than one solid in the package all are measured even when aggregate is false.
* **C343 Load cases and bolt patterns that are accepted** - proved (Load_Props). Bolt patterns: finite real numbers.
* **C344 Load cases survive a round trip** - proved (Load_Props). 
* **C345 Registries of load cases and bolt patterns** - proved (Load_Props). 
* **C346 Interfaces of an exported assembly** - proved (Load_Props). 
* **C347 Whatever was accepted can be written, read again and found in the export** - refuted (Load_Props). REFUTED: a load case read with position null cannot be written (TypeError); half a bolt is accepted and written as no bolts, which is refused on reading; a pattern registered for (child, parent) of a mate, or for a pair without a mate, is silently dropped from the export.
* **C348 Walking an expression leaves it unchanged** - proved (Tree_Props). Spans and RangeExpr.step are not modelled.
* **C349 An override of visit_identifier reaches each identifier on the way once** - proved (Tree_Props). Places entered: see C351 for those that are not.
* **C350 The default walk changes nothing** - refuted (Tree_Props). REFUTED: named arguments of a method call and the elif branches of an if expression are dropped, the final expression of a block is dropped, and every function call raises AttributeError (the visit method reads a field the node does not have).
* **C351 An override reaches every identifier** - refuted (Tree_Props). REFUTED: conditional expressions, while and if statements, assignment targets, match arms and blocks of if expressions are returned as they are.
* **C352 A tree transform returns a module** - refuted (Tree_Props). REFUTED: for every module, even an empty one, and whatever visit_literal and visit_identifier do, transform raises TypeError: a command body is a Block, which cannot be iterated over, and Module has no commands argument; so does every pipeline that reaches such a transform.
* **C353 Pipelines apply their transforms in order** - proved (Tree_Props). 
* **C354 Pipelines do not share** - refuted (Tree_Props). REFUTED: the constructor keeps a non-empty list it is given: add then changes the list of the caller and every other pipeline made from it (but not if the list was empty).
* **C355 Viewer configurations survive a round trip** - proved (View_Props). pathlib is a parameter: str(Path(s)) names itself again; of numbers only whether they are zero is modelled.
* **C356 Colours of the palette are found in any spelling** - proved (View_Props). str.lower is a parameter.
* **C357 Every colour of the palette is found under its name** - refuted (View_Props). REFUTED: the name is lower-cased but the keys are not: a key with an upper-case letter ("Gold") always yields the default colour.
* **C358 from_dict leaves the dictionary it is given as it was** - refuted (View_Props). REFUTED: sizes, colours and the palette of the caller's dictionary are replaced by tuples in place, even when the call then fails.
* **C359 The registry of analysis back ends** - proved (Back_Props). str.lower and issubclass are parameters.
<!-- end generated -->

## Trusted base

* Coq 8.16.1's kernel (including vm_compute, used on closed terms only) and its
  standard library. No other library is imported, no plugin, no axiom of our own,
  no kernel check switched off.
* `Print Assumptions` for each theorem: see ASSUMPTIONS.md (generated from the build
  log). A theorem is either closed under the global context or uses a subset of the
  standard library's `ClassicalDedekindReals.sig_not_dec`,
  `ClassicalDedekindReals.sig_forall_dec` (real numbers),
  `FunctionalExtensionality.functional_extensionality_dep` (real numbers; and
  Interp_Proofs7) and `Classical_Prop.classic` (some lemmas on reals). Listings of the
  axioms of everything loaded (as coqchk makes them) also name the opaque constants of the
  library's module types, `Coq.Reals.Rdefinitions.RbaseSymbolsImpl.*` and
  `Coq.ssr.ssrunder.*`; no theorem rests on them.
* The reading of the Python source recorded in the comment of each definition. The
  tables of Builtin_Model.v were transcribed by a script from the source text.
* That the parameters of the model (records such as `host`, `unicode`, `crypto`,
  `figures`) are inhabited by what CPython, numpy, gpg etc. do. Each _Props.v has an
  example meeting the hypotheses its theorems put on them.

## What is modelled

| area | files of /repo/src/yapcad | left out or simplified |
|---|---|---|
| Lex | dsl/lexer.py, dsl/tokens.py | Unicode tables and float() are an oracle; error messages, file names, CPython's recursion limit |
| Parse | dsl/parser.py, dsl/ast.py | spans, text of native code, CPython's recursion limit; if/match expressions are outside the grammar relation of C07 (but inside the model) |
| Types, Cycle, Check, Builtin | dsl/types.py, dsl/checker.py, dsl/symbols.py | tiers, message texts; Cycle takes the call graph as given |
| Interp, Interp_Ref, Lib, Compile | dsl/runtime/{interpreter,context,values}.py, builtins.py on ints and lists | floats, geometry, native code are a `host` that may raise and change a world but cannot reach the interpreter; AST transforms; Interp_Ref is an independent big-step reference semantics |
| Prov | dsl/runtime/provenance.py | hash and isspace are parameters; no lone surrogates |
| Json, Pkg, Sign | json.dumps canonical form, package/{core,validator,signing}.py | YAML, hashing, gpg, ssh-keygen are parameters; string keys only; I/O errors; list_signatures; an entry without "signer" |
| Resolver, DReg, Datum | assembly/{resolver,datum_registry,datum}.py | booleans are an arbitrary function that may fail; logging |
| Constr, Mate, Asm | assembly/{constraint,mate,assembly}.py | messages and details of results; numpy is present; Mate builder functions (mate.py:765-980); exports and reports of Assembly; load case and bolt pattern contents |
| Solver | assembly/{solver,face_mate}.py | numpy nan from zero stray vectors; messages, details, logging; FaceToFaceMate.validate beyond the AttributeError; create_*_mate wrappers; solve_mate_chain with a caller's own solver |
| Isect | geom.py: arc part (samplearc, unsamplearc, segmentarc, arccenter, line-arc and arc-arc intersections, circle tangents, inside test) | reals for floats; arcs as records (already checked lists) |
| Glist | geom.py polylines and geometry lists (3092-3582, 3974-4010, 4387-4428) | reals for floats; conics and splines in lists; polylines and lists inside a list are not cut; reverse=True; arcs against polylines; intersectGeomListXY |
| Back | package/analysis/base.py:103-118 | str.lower and issubclass as parameters |
| ASurf | analytic_surfaces.py (plane, sphere, cylinder, cone, torus, B-spline: constructors, evaluation, normals, tessellation) and native_brep.py's surface transformations and (de)serialization | reals for floats; surface dictionaries as records; tessellated surfaces modelled, no theorem |
| Brep | native_brep.py: entities, TopologyGraph (additions, traversals, closure, validation of solids), evaluate_edge, transform_topology_graph, TopologyGraph.transform, scaling, (de)serialization of graphs | ids are strings and an entity belongs to one graph; iterating over a set of faces in any order; intersection and containment tests (tessellation, ray casting) are parameters; octrees, tags beyond copying not modelled |
| Plan, Accept | package/analysis/schema.py (validate_plan, validate_result), the entries kept by cli.py and base.py, and the evaluation of acceptance criteria in yapcad_native.py, calculix.py, fenics.py | plans as JSON dictionaries; wording of messages; YAML and JSON files; metrics and limits are reals (no text, bool or nan); criteria are mappings; measuring and solving |
| View | viewer/config.py | paths by their text, pathlib and str.lower as parameters; of numbers only whether they are zero |
| GCheck | geometry_checks.py | reals for floats; texts of warnings; points of fewer than three components |
| Meas | package/analysis/yapcad_native.py: volume, area, mass, box and centroid checks, _mesh_centroid, the choice of solids | surfaces only (BREP data needs OCC); metrics are reals; the entity lookup of the package and the clearance placeholder are not modelled |
| Load | assembly/load_case.py; the registries of assembly/assembly.py:453-509; grouping of mates and load cases in mechatron_export.py | field values as JSON values; bolt patterns with finite reals; mates abstract except for their parts; the rest of the snapshot is not modelled |
| Tree | dsl/transforms/base.py: TreeTransform, TransformPipeline, IdentityTransform | overrides of visit_literal and visit_identifier only; spans and RangeExpr.step dropped |
| Path | manufacturing/path_utils.py | missing dictionary keys; three element lists are vectors with w = 0 |
| Manu | manufacturing/{data,connectors,segmentation,rings}.py | OCC (split, sweep, union) is a parameter that may fail, or exact half spaces; warning texts, assembly instructions, bounding boxes, ring profiles and ring solids, hole drilling, build volume checks; the kernel's own splitting code (segmentation.py:73-162, 243-380) |
| Kin | kinematics/*.py | external datum frames, NaN, float rounding |
| Coll | collision/{interface,gear_interface,thread_interface,registry,detector}.py | volumes, clearances, reason texts; geometric tests are a parameter |
| Stl, Mesh, Oct | io/stl.py, mesh.py, geometry_utils.py, octtree.py | BREP-only solids, I/O errors; splines in the octree |
| Xform, Alias, Fig, Spline | xform.py, geom.py, spline.py | floats are reals (no rounding, NaN, infinities); malformed figures |
| Cache, Meta | geometry.py caches, metadata.py, dsl/meta_apply.py, dsl/transforms/metadata.py | BREP elements; Polygon and Boolean; sharing of mutable metadata |
| GJson | io/geometry_json.py | bounding boxes and sampled polylines (not read back), non-string ids, metadata slots that are not dictionaries |
| Solid, Prim, Sphere, Extr | geom3d.py, geom3d_util.py (boxes, cones, cylinders, spheres, spheroids, dodecahedra, extrude, loft) | OCC shapes, metadata, material and construction lists; floats are reals; id() reuse is an arbitrary hash history |

Not modelled: GUI and drawing (pyglet, dxf), OCC bindings (brep.py, native_brep.py,
boolean engines), triangulator, mesh booleans, fasteners, gears,
simulation and analysis back ends, viewer, LLM tooling, and the parts of geom.py and
geom3d_util.py that no definition cites.

## Testing the theorems

seeded/LOG.jsonl records each wrong program tried (definition, edit, claim broken,
theorems that failed). The runner edits a copy of the model, rebuilds the modules of
that area and notes the first lemma that breaks and the theorems depending on it.

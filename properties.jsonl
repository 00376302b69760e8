{"id": "C01", "title": "Tokenizing always finishes, ending in one EOF", "statement": "For every source text, tokenize() returns: either it raises a lexer error or it yields a token list whose last token is the only EOF token. It never loops.", "quantifier": "every finite sequence of Unicode characters", "why_tests_cant": "the input space is all strings; a hang or a missing EOF needs one particular string", "anchors": ["src/yapcad/dsl/lexer.py: Lexer.tokenize, _scan_token, tokenize", "src/yapcad/dsl/tokens.py: TokenType"]}
{"id": "C02", "title": "Every token is the source text at its span", "statement": "When tokenize(src) succeeds, every ordinary token's lexeme is exactly the characters of src between its start and end offsets and its line/column are those of the offsets; tokens come in source order and do not overlap; the text between neighbouring tokens is only blanks and comments (line breaks only while a bracket is open), and EOF stands at the end, so nothing is dropped and a diagnostic points at the text it names.", "quantifier": "every source text that tokenizes", "why_tests_cant": "depends on every interleaving of comments, strings, brackets, indentation and newlines", "anchors": ["src/yapcad/dsl/lexer.py: _make_token, _scan_token", "src/yapcad/dsl/tokens.py: SourceSpan"]}
{"id": "C03", "title": "Every INDENT is closed by a DEDENT", "statement": "In the token stream of any accepted source every INDENT is closed by a later DEDENT before EOF; there are never fewer DEDENTs than INDENTs, and the stream is properly nested exactly when the two counts agree.", "quantifier": "every accepted source text", "why_tests_cant": "needs every shape of indentation history, including dedents to a column never opened", "anchors": ["src/yapcad/dsl/lexer.py: _handle_line_start"]}
{"id": "C04", "title": "String literals denote the string that was written", "statement": "For every string, writing it between single, double or triple quotes with any mix of raw characters and the documented escapes (\\n \\t \\r \\\\ \\\" \\' \\0 \\xHH \\uHHHH) and tokenizing it gives one STRING token whose value is that string; every string has such a spelling.", "quantifier": "every string of characters", "why_tests_cant": "unbounded strings and every escape position", "anchors": ["src/yapcad/dsl/lexer.py: _scan_string"]}
{"id": "C05", "title": "Integer literals denote the number that was written", "statement": "For every natural number, its decimal spelling (up to Python's int() digit limit, beyond which a lexer error is raised), its 0x/0X and its 0b/0B spellings (with any underscores after the first digit) tokenize to one integer token with that value.", "quantifier": "every natural number and underscore placement", "why_tests_cant": "infinitely many literals", "anchors": ["src/yapcad/dsl/lexer.py: _scan_number"]}
{"id": "C06", "title": "Parsing always finishes", "statement": "For every list of tokens, parsing terminates: with a module, having read everything up to the end of input, or with a parser error located at one of the tokens. An exception that is not a parser error can only escape when the stream contains an '@' decorator.", "quantifier": "every list of tokens", "why_tests_cant": "backtracking and recursive descent over arbitrary streams", "anchors": ["src/yapcad/dsl/parser.py: Parser.parse_module, _parse_expression"]}
{"id": "C07", "title": "Operator precedence and associativity are unambiguous", "statement": "Every way of writing an expression that the documented grammar allows (precedence table, ** to the right and all other binary operators to the left, unary operators, conditionals, calls, members, indexing, lists, comprehensions, dicts, lambdas, parentheses) is read as that expression; the grammar is unambiguous; in particular writing any operator tree with only the parentheses the precedence table requires and parsing it gives the tree back.", "quantifier": "every expression tree of binary and unary operators, of any depth", "why_tests_cant": "infinitely many nestings of operators", "anchors": ["src/yapcad/dsl/parser.py: _parse_binary_expr, _parse_unary, PRECEDENCE"]}
{"id": "C08", "title": "Accepted programs have no while statement", "statement": "No accepted program contains a while statement, in any function body, nested block, expression, default or decorator; a while statement is a parser error wherever a statement can start.", "quantifier": "every token stream", "why_tests_cant": "must hold for all programs", "anchors": ["src/yapcad/dsl/parser.py: _parse_statement"]}
{"id": "C09", "title": "Assignability laws", "statement": "A value of type b can be assigned to a variable of type a exactly when the documented rules allow it (same type, int to float, point/vector variants to and from the polymorphic one, profile2d to region2d, lists element-wise, T to T?, anything to a recovery type); every type is assignable to itself, int to float but not back; the common type found for two types accepts both; chains of assignments compose for types without points and vectors.", "quantifier": "all types, of any nesting depth", "why_tests_cant": "infinitely many nested types", "anchors": ["src/yapcad/dsl/types.py: Type.is_assignable_from, common_type"]}
{"id": "C10", "title": "Recursion checking finds exactly the recursive commands", "statement": "The recursion check reports at least one warning if and only if some command can call itself directly or through others, and every warning names a genuine cycle of calls (W301 exactly for a command calling itself directly), whatever order the sets are iterated in.", "quantifier": "every module call graph", "why_tests_cant": "all finite directed graphs", "anchors": ["src/yapcad/dsl/checker.py: _check_recursion"]}
{"id": "C11", "title": "A checked program's values have the types the checker gave them", "statement": "If the checker accepts a command, then at run time every variable and emitted value has the declared type, and arithmetic is done at that type.", "quantifier": "every accepted program and input", "why_tests_cant": "all programs and all inputs", "anchors": ["src/yapcad/dsl/checker.py", "src/yapcad/dsl/runtime/interpreter.py"]}
{"id": "C12", "title": "Scoping: blocks and expressions leave outer variables alone", "statement": "After a for/if statement a name has a value iff it had one before, and the same value unless an assignment statement of the body targets it; names declared in the body are gone. Evaluating an expression (including calls of other commands) changes no variable, except through the names match patterns bind.", "quantifier": "every program, state and nesting of scopes", "why_tests_cant": "arbitrary nesting", "anchors": ["src/yapcad/dsl/symbols.py: Scope, SymbolTable", "src/yapcad/dsl/runtime/context.py: ExecutionContext.new_scope"]}
{"id": "C13", "title": "Execution ends whenever no parameter default makes a keyword-only call", "statement": "For every module in which no parameter default contains a call with keyword arguments only, every command, all parameters and every recursion limit, execute() ends; an explicit bound (twice the nesting depth of the program per remaining call level) suffices and the outcome does not depend on it.", "quantifier": "all modules and inputs", "why_tests_cant": "halting over all programs", "anchors": ["src/yapcad/dsl/runtime/interpreter.py: Interpreter.execute, _call_command"]}
{"id": "C14", "title": "Call depth is bounded and always restored", "statement": "During any execution the nested command depth never exceeds recursion_limit, and after the execution (success or failure) the depth counter is what it was before.", "quantifier": "all modules, inputs and failure points", "why_tests_cant": "every point at which an error can be raised", "anchors": ["src/yapcad/dsl/runtime/interpreter.py: _call_command"]}
{"id": "C15", "title": "A failed requirement of the command means a failed execution", "statement": "If a require/assert evaluated by the executed command itself (at any nesting of its loops and branches) is false, the execution is not reported as successful and the failure is listed.", "quantifier": "all programs and inputs", "why_tests_cant": "arbitrarily nested calls", "anchors": ["src/yapcad/dsl/runtime/interpreter.py: _exec_require, _call_command, execute"]}
{"id": "C16", "title": "Success iff something was emitted and all requirements held", "statement": "execute() reports success exactly when the command emitted a value and no requirement of that command failed, and the reported value is the last one emitted.", "quantifier": "all programs and inputs", "why_tests_cant": "all control paths", "anchors": ["src/yapcad/dsl/runtime/interpreter.py: execute, _exec_emit"]}
{"id": "C17", "title": "and/or compute the connective; a conditional evaluates only the chosen branch", "statement": "When both operands evaluate, `a and b` / `a or b` evaluate a, then b, and give the boolean connective of their truth values; `x if c else y` evaluates c and then exactly the chosen branch.", "quantifier": "all operand expressions", "why_tests_cant": "needs all expressions including failing ones", "anchors": ["src/yapcad/dsl/runtime/interpreter.py: _eval_binary_op"]}
{"id": "C18", "title": "Comprehensions are size- and depth-limited", "statement": "No comprehension yields more than the configured maximum number of elements or nests deeper than the configured depth; otherwise an error is raised.", "quantifier": "all programs and list values", "why_tests_cant": "all sizes", "anchors": ["src/yapcad/dsl/runtime/interpreter.py: _eval_list_comprehension"]}
{"id": "C19", "title": "All statements of a command body are executed", "statement": "The statements the executed command starts are, in order, a run of its body: each statement in turn, with the taken branch or the turns of a loop in between, up to the end, a return or an exception; a successful run of a body without branches, loops or returns starts every statement.", "quantifier": "all command bodies", "why_tests_cant": "all bodies", "anchors": ["src/yapcad/dsl/runtime/interpreter.py: _execute_command", "src/yapcad/dsl/parser.py: _parse_block"]}
{"id": "C20", "title": "Assigning in a loop updates the outer variable", "statement": "After `total = total + x` in a for-loop, the enclosing total has accumulated every iteration.", "quantifier": "all loops", "why_tests_cant": "all iteration counts", "anchors": ["src/yapcad/dsl/parser.py: _parse_statement", "src/yapcad/dsl/runtime/interpreter.py: _exec_for, _exec_var_decl"]}
{"id": "C21", "title": "Provenance signatures ignore line endings and surrounding blank space, nothing else", "statement": "Two sources have the same compute_source_signature if they are the same text up to CR/LF/CRLF convention and surrounding blank space, and only then (short of a sha256 collision); verify_source_signature decides exactly that; to_dict/from_dict lose nothing of a record; create_provenance keeps parameter names, order and values.", "quantifier": "all source strings and all provenance records", "why_tests_cant": "all strings", "anchors": ["src/yapcad/dsl/runtime/provenance.py:compute_source_signature", "src/yapcad/dsl/runtime/provenance.py:verify_source_signature", "src/yapcad/dsl/runtime/provenance.py:Provenance"]}
{"id": "C22", "title": "Package validation detects every altered file", "statement": "validate_package answers True exactly when the manifest loads to a dictionary, has the supported schema, its primary geometry is present and readable, every listed file is present with the recorded SHA-256 digest (if one is recorded), and its materials are well-formed; it answers False exactly when some message is an error.", "quantifier": "all manifests and file contents", "why_tests_cant": "all file contents/tamperings", "anchors": ["src/yapcad/package/validator.py:validate_package", "src/yapcad/package/validator.py:_check_file", "src/yapcad/package/validator.py:_validate_materials"]}
{"id": "C23", "title": "A package just created validates", "statement": "A package made by create_package_from_entities with the default hash algorithm validates, and validates again whenever it is saved after any sequence of add_geometry_file calls without overwrite (and without path or hash in metadata), recompute_hashes and save, whether or not some of the calls raise.", "quantifier": "all options and operation histories", "why_tests_cant": "all histories and algorithms", "anchors": ["src/yapcad/package/core.py:create_package_from_entities", "src/yapcad/package/core.py:add_geometry_file", "src/yapcad/package/core.py:PackageManifest", "src/yapcad/package/validator.py:validate_package", "src/yapcad/package/validator.py:_check_file", "src/yapcad/package/validator.py:_validate_materials"]}
{"id": "C24", "title": "Manifest attachments are unique per path", "statement": "Whatever sequence of add_geometry_file, recompute_hashes and save is performed, derived geometry and attachments each name a path at most once; after a successful addition the section's entry for the destination carries the digest of the added file until that destination is added to that section again or hashes are recomputed.", "quantifier": "all sequences of additions", "why_tests_cant": "all histories", "anchors": ["src/yapcad/package/core.py:create_package_from_entities", "src/yapcad/package/core.py:add_geometry_file", "src/yapcad/package/core.py:PackageManifest"]}
{"id": "C25", "title": "The signed digest covers everything but the signatures", "statement": "The manifest digest that is signed does not depend on key order (at any depth) nor on the signatures section; two manifests of ordinary text with the same digest agree in every other field, unless SHA-256 collides; no sequence of sign_package calls changes the digest or any other field.", "quantifier": "all manifests", "why_tests_cant": "all manifests and edits", "anchors": ["src/yapcad/package/signing.py:_compute_canonical_manifest_hash", "src/yapcad/package/signing.py:sign_package", "src/yapcad/package/signing.py:verify_package"]}
{"id": "C26", "title": "Signatures reported valid were accepted over the present manifest", "statement": "verify_package reports a signature VALID only if it is listed in the manifest, its file is there and the tool accepted it over the present manifest; if tools accept only signatures over signed manifests, a VALID signature means the manifest is a signed one, and if the package also validates every file listed in the signed manifest has its recorded digest. A signature just made is reported VALID, and stays so after any further signatures written to other files; verification of any signing history answers without errors; is_valid and overall_status are as documented.", "quantifier": "all histories of sign/verify", "why_tests_cant": "all signing histories", "anchors": ["src/yapcad/package/signing.py:_compute_canonical_manifest_hash", "src/yapcad/package/signing.py:sign_package", "src/yapcad/package/signing.py:verify_package"]}
{"id": "C27", "title": "Assembly resolution applies each cutter exactly to its targets in priority order", "statement": "After BasicResolver.resolve, the geometry of every targeted part is its original geometry with every operation that names it applied (once per mention), in increasing priority and stably; failures leave the geometry unchanged and become errors or warnings by policy; parts nobody targets are unchanged.", "quantifier": "all part lists, priorities and target filters", "why_tests_cant": "all assemblies", "anchors": ["src/yapcad/assembly/resolver.py: BasicResolver.resolve"]}
{"id": "C28", "title": "Resolution accounts for every part and error", "statement": "The result contains exactly the input parts minus consumed cutters nobody targets; success is reported iff there are no errors; the errors are exactly the errors of the parts; a cutter without target_filter fails the resolution and leaves every part untouched.", "quantifier": "all assemblies and policies", "why_tests_cant": "all assemblies", "anchors": ["src/yapcad/assembly/resolver.py: BasicResolver.resolve, StagedResolver.resolve"]}
{"id": "C29", "title": "Staged resolution is the stages in sequence", "statement": "Staged resolution reports the errors of every stage, feeds each stage the geometry of the previous one, shows each stage only its own cutters, accumulates applied operations, and with a single stage agrees with the basic resolver.", "quantifier": "all assemblies and stage lists", "why_tests_cant": "all stage histories", "anchors": ["src/yapcad/assembly/resolver.py: StagedResolver.resolve"]}
{"id": "C30", "title": "Datum lookup returns the last registration", "statement": "For any history of registrations, lookups, listings, search paths and clears, and any files on disk, get_datum, list_datums and get_datums_for_source of a source that no file ties to another name answer what the history of that source alone says: the last registration, or the file found at the first lookup; listing agrees with lookup.", "quantifier": "all histories of register/get", "why_tests_cant": "all histories and interleavings", "anchors": ["src/yapcad/assembly/datum_registry.py:DatumRegistry"]}
{"id": "C31", "title": "World transforms are never stale", "statement": "After any history of adding parts, setting joint values through the chain, adding frames (without replacing a frame that a part hangs on) and querying, get_world_transform(part, frame) equals the product of the current joint and frame transforms along the path from the root; queries change nothing; no history exhausts recursion.", "quantifier": "all histories of operations and queries", "why_tests_cant": "all interleavings of updates and cached queries", "anchors": ["src/yapcad/kinematics/chain.py: KinematicChain", "src/yapcad/kinematics/part.py", "src/yapcad/kinematics/joint.py"]}
{"id": "C32", "title": "Rigid transforms form a group", "statement": "Composition is associative, identity is neutral, inverse undoes, transform_point of a product is successive transformation, and distances are preserved by rotations and translations built by the constructors.", "quantifier": "all transforms and points over the reals", "why_tests_cant": "continuous domain", "anchors": ["src/yapcad/kinematics/transform.py: Transform"]}
{"id": "C33", "title": "Joint limits are respected", "statement": "After set_joint_value with clamping the stored value lies within the joint limits (when min <= max), is the nearest admissible value and equals the request whenever the request was within them; without clamping it is the request; no other joint changes.", "quantifier": "all limits and values", "why_tests_cant": "continuous domain", "anchors": ["src/yapcad/kinematics/joint.py: Joint"]}
{"id": "C34", "title": "Saving and loading a mechanism preserves it", "statement": "to_dict followed by from_dict yields a mechanism with the same name, parts, joints, frames and world transforms, whatever the iteration order of Python sets, for every mechanism in which no parent has an empty name and nothing hangs on an extra frame of the global datum.", "quantifier": "all chains constructible by the API", "why_tests_cant": "all tree shapes", "anchors": ["src/yapcad/kinematics/chain.py: to_dict, from_dict, _topological_sort"]}
{"id": "C35", "title": "Interface registry indices agree with the registry", "statement": "After any history of register, register_many, unregister and clear, looking interfaces up by name, part or type, listing all of them or all parts gives exactly the currently registered ones in order of registration; register raises exactly if the name is taken and then changes nothing; unregister returns the removed interface or None; an overlap of two parts is excused exactly if some of their registered interfaces meet and all that meet are compatible.", "quantifier": "all histories", "why_tests_cant": "all histories", "anchors": ["src/yapcad/collision/registry.py:InterfaceRegistry"]}
{"id": "C36", "title": "STL binary round trip", "statement": "Every list of fewer than 2^32 triangles whose numbers fit in a single is written as a binary STL of 84 + 50 n bytes; when the name does not begin with \"solid\" or no number exceeds 1e20, reading it back gives the same triangles in the same order, every number rounded to a single. The surface built from them has either three own vertices per triangle, or merged vertices, pairwise of different keys, with one face per triangle, in order, whose corners agree with the triangle's to 1e-9.", "quantifier": "all triangle lists", "why_tests_cant": "all sizes; header/heuristic interactions", "anchors": ["src/yapcad/io/stl.py:_write_binary", "src/yapcad/io/stl.py:_is_binary_stl", "src/yapcad/io/stl.py:_parse_binary_stl", "src/yapcad/io/stl.py:_triangles_to_surface", "src/yapcad/io/stl.py:read_stl"]}
{"id": "C37", "title": "Spatial queries miss nothing", "statement": "For every history of calls none of which raised, on a quad- or octree made without bare points, getElements(box) returns exactly the elements whose bounding boxes overlap the box (in the plane for a quadtree), each position once; without user-given centres and empty elements it does not raise once there are elements; boxoverlap2 is exact on proper boxes.", "quantifier": "all element sets, query boxes and parameters", "why_tests_cant": "all geometry configurations", "anchors": ["src/yapcad/octtree.py:NTree.getElements", "src/yapcad/octtree.py:NTree.updateTree", "src/yapcad/octtree.py:boxoverlap2", "src/yapcad/octtree.py:bbox2oct", "src/yapcad/octtree.py:box2boxes"]}
{"id": "C38", "title": "Affine matrices compose and invert", "statement": "Matrix.mul is associative and applying a product equals applying the factors in turn; Translation, Scale and Rotation (unit axis) with inverse=True undo the forward matrix; rotations about a unit axis preserve distances.", "quantifier": "all matrices, vectors, axes and angles over the reals", "why_tests_cant": "continuous domain", "anchors": ["src/yapcad/xform.py: Matrix, Rotation, Translation, Scale"]}
{"id": "C39", "title": "Matrices are values unless a row list is handed on", "statement": "In a program that makes matrices (from nothing, from numbers, from products, from transposed matrices) and changes them by set, setrow and setcol, an operation changes the matrix it names and no other, so long as it does not hand one matrix's own row list to another (Matrix(A) of an untransposed A, A.setrow(i, B.getrow(k)) of untransposed matrices, ...). In every program an entry reads back as it was last written.", "quantifier": "all sequences of operations on any number of matrices", "why_tests_cant": "all mutation histories", "anchors": ["src/yapcad/xform.py:Matrix.__init__", "src/yapcad/xform.py:Matrix.get", "src/yapcad/xform.py:Matrix.set", "src/yapcad/xform.py:Matrix.getrow", "src/yapcad/xform.py:Matrix.getcol", "src/yapcad/xform.py:Matrix.setrow", "src/yapcad/xform.py:Matrix.setcol", "src/yapcad/xform.py:Matrix.mul"]}
{"id": "C40", "title": "Rotation about a centre, mirroring and translation are isometries", "statement": "rotate(x, ang, cent=c) maps c to c, preserves distances and turns x towards y about z for positive angles; mirroring is an involution preserving distances that fixes exactly the points of its plane; translation by d then -d is the identity; scaling about the origin multiplies coordinates by s; the cross product is orthogonal to its arguments, right-handed and of the area's size.", "quantifier": "all figures, centers, factors and angles", "why_tests_cant": "continuous domain", "anchors": ["src/yapcad/geom.py: scale, rotate, translate"]}
{"id": "C41", "title": "Bounding boxes contain their figures", "statement": "Every point sampled from a figure with 0<=u<=1 lies in bbox(figure), for points, lines, polylines and full circles; polyline boxes are the smallest such box.", "quantifier": "all figures and parameters", "why_tests_cant": "continuous domain", "anchors": ["src/yapcad/geom.py: bbox, linebbox, polybbox, arcbbox, sample"]}
{"id": "C42", "title": "Sampling hits the endpoints and unsample inverts sample", "statement": "sample(x,0) and sample(x,1) are the endpoints of a line or polyline, samples are placed at the proportional distance, and unsample(l, sample(l,u)) = u for a line (polylines: C293).", "quantifier": "all lines/polylines and parameters", "why_tests_cant": "continuous domain", "anchors": ["src/yapcad/geom.py: sampleline, unsampleline, samplepoly, unsamplepoly"]}
{"id": "C43", "title": "Line intersection is sound and complete", "statement": "A reported intersection point lies on both segments (both lines if inside=False), and if two coplanar segments whose direction cross product c satisfies c^2 >= epsilon meet at a point, that point is reported.", "quantifier": "all pairs of segments", "why_tests_cant": "continuous domain", "anchors": ["src/yapcad/geom.py: lineLineIntersectXY"]}
{"id": "C44", "title": "Point-in-figure tests are right", "statement": "The triangle test answers True exactly for the points of the closed triangle (area above tolerance); a True answer of isInsideConvexPolyXY is always right.", "quantifier": "all triangles/polygons and points", "why_tests_cant": "continuous domain, degenerate alignments", "anchors": ["src/yapcad/geom.py: _isInsideTriangleXY, _isInsideConvexPolyXY, isinsidepolyXY, barycentricXY"]}
{"id": "C45", "title": "Distances and closest points on a line", "statement": "linePointXY(inside=False) returns the exact distance to the infinite line, and the point of the line closest to p; with inside=True, distance=True it returns a distance attained on the line that never exceeds the distance to any point of the segment.", "quantifier": "all lines and points", "why_tests_cant": "continuous domain", "anchors": ["src/yapcad/geom.py: linePointXY"]}
{"id": "C46", "title": "Splines interpolate and stay in the hull", "statement": "Bezier and open B-spline curves start and end at the first and last control points; every point is an average of the control points with non-negative weights that sum to one (the Bernstein or Cox-de Boor functions), so it stays in their convex hull; the Bezier tangent is the derivative; a B-spline control point acts only on its degree + 1 spans; a NURBS curve with clamped knots and positive weights does the same for parameters below 1 and starts at the first control point (and ends at the last when there are no interior knots); a Catmull-Rom curve and its samples pass through every control point.", "quantifier": "all control polygons, degrees and parameters", "why_tests_cant": "continuous domain, all degrees", "anchors": ["src/yapcad/spline.py:bezier_point", "src/yapcad/spline.py:bezier_tangent", "src/yapcad/spline.py:bezier_curve", "src/yapcad/spline.py:bspline_point", "src/yapcad/spline.py:_bspline_basis", "src/yapcad/spline.py:_uniform_knot_vector", "src/yapcad/spline.py:evaluate_nurbs", "src/yapcad/spline.py:_nip", "src/yapcad/spline.py:evaluate_catmullrom", "src/yapcad/spline.py:sample_catmullrom", "src/yapcad/geom.py:nurbs"]}
{"id": "C47", "title": "Cached properties describe the current figure", "statement": "After any history of translate, scale, rotate, mirror, transform, assignments to elem (each followed by update = ... before the next query) and queries none of which raised, length and geom, and for figures other than solids center and bbox, are those of a new Geometry around the current figure; center is so for solids too when their bounding box can be computed. A surface asked for after all changes is the triangulation of the current figure at sampling parameters within epsilon of those asked for.", "quantifier": "all figures, all figure functions, all such histories", "why_tests_cant": "all interleavings of updates and cached queries", "anchors": ["src/yapcad/geometry.py:Geometry.translate", "src/yapcad/geometry.py:Geometry.scale", "src/yapcad/geometry.py:Geometry.rotate", "src/yapcad/geometry.py:Geometry.mirror", "src/yapcad/geometry.py:Geometry.transform", "src/yapcad/geometry.py:Geometry._updateInternals", "src/yapcad/geometry.py:Geometry.length", "src/yapcad/geometry.py:Geometry.center", "src/yapcad/geometry.py:Geometry.bbox", "src/yapcad/geometry.py:Geometry.geom", "src/yapcad/geometry.py:Geometry.surface", "src/yapcad/geometry.py:Geometry.elem", "src/yapcad/geometry.py:Geometry.update"]}
{"id": "C48", "title": "Reversing and translating figures", "statement": "For a list of points, lines and forward arcs, reversal reverses the order of the elements and the sampling of each (sample(rev x,u)=sample(x,1-u)); translation keeps every length and moves every arc sample by the vector.", "quantifier": "all lines, arcs, polylines and geometry lists", "why_tests_cant": "continuous domain, all lists", "anchors": ["src/yapcad/geom.py: reverseGeomList, samplearc, segmentpoly"]}
{"id": "C49", "title": "Rotation accepts any nonzero axis", "statement": "Rotation(axis, angle) works for every axis of nonzero length, normalising it.", "quantifier": "all matrices, vectors, axes and angles over the reals", "why_tests_cant": "continuous domain", "anchors": ["src/yapcad/xform.py: Matrix, Rotation, Translation, Scale"]}
{"id": "C50", "title": "Scaling about a centre fixes the centre", "statement": "scale(x, s, cent=c) maps c to c and multiplies distances from c by s.", "quantifier": "all figures, centers, factors and angles", "why_tests_cant": "continuous domain", "anchors": ["src/yapcad/geom.py: scale, rotate, translate"]}
{"id": "C51", "title": "Bounding boxes of partial arcs contain the arc", "statement": "Every sample of a partial arc lies in bbox(arc).", "quantifier": "all figures and parameters", "why_tests_cant": "continuous domain", "anchors": ["src/yapcad/geom.py: bbox, linebbox, polybbox, arcbbox, sample"]}
{"id": "C52", "title": "Every crossing of two segments is found", "statement": "If two coplanar segments cross at a point, lineLineIntersectXY(inside=True) reports it.", "quantifier": "all pairs of segments", "why_tests_cant": "continuous domain", "anchors": ["src/yapcad/geom.py: lineLineIntersectXY"]}
{"id": "C53", "title": "Polygon inside tests answer True for every interior point", "statement": "isInsideConvexPolyXY and isinsideXY answer True for every point of the closed polygon.", "quantifier": "all triangles/polygons and points", "why_tests_cant": "continuous domain, degenerate alignments", "anchors": ["src/yapcad/geom.py: _isInsideTriangleXY, _isInsideConvexPolyXY, isinsidepolyXY, barycentricXY"]}
{"id": "C54", "title": "linePointXY params and segment closest point", "statement": "params=True gives the sampling parameter of the closest point, and inside=True gives a point on the segment.", "quantifier": "all lines and points", "why_tests_cant": "continuous domain", "anchors": ["src/yapcad/geom.py: linePointXY"]}
{"id": "C55", "title": "Reversal is an involution on every figure", "statement": "reverseGeomList applied twice gives back the figure, for polylines and arcs too.", "quantifier": "all lines, arcs, polylines and geometry lists", "why_tests_cant": "continuous domain, all lists", "anchors": ["src/yapcad/geom.py: reverseGeomList, samplearc, segmentpoly"]}
{"id": "C56", "title": "A cutter whose target does not exist is reported", "statement": "If an operation names a target that is not among the parts, resolution reports an error or warning, or keeps the cutter.", "quantifier": "all assemblies and policies", "why_tests_cant": "all assemblies", "anchors": ["src/yapcad/assembly/resolver.py: BasicResolver.resolve, StagedResolver.resolve"]}
{"id": "C57", "title": "The through flag is enforced", "statement": "With through=True a cut that does not go all the way through is reported according to policy (documented step 7).", "quantifier": "all part lists, priorities and target filters", "why_tests_cant": "all assemblies", "anchors": ["src/yapcad/assembly/resolver.py: BasicResolver.resolve"]}
{"id": "C58", "title": "Staged results keep warnings and retained cutters, and apply each operation once", "statement": "Warnings and retained cutters of every stage appear in the staged result, and no operation is applied twice.", "quantifier": "all assemblies and stage lists", "why_tests_cant": "all stage histories", "anchors": ["src/yapcad/assembly/resolver.py: StagedResolver.resolve"]}
{"id": "C59", "title": "Direct edits of joints and frames take effect", "statement": "After part.joint.value = v, or after part.add_frame replaces a frame that a part hangs on, get_world_transform reflects the change.", "quantifier": "all histories of operations and queries", "why_tests_cant": "all interleavings of updates and cached queries", "anchors": ["src/yapcad/kinematics/chain.py: KinematicChain", "src/yapcad/kinematics/part.py", "src/yapcad/kinematics/joint.py"]}
{"id": "C60", "title": "Euler angles round trip", "statement": "from_euler_xyz(*to_euler_xyz(T)) equals T for every rotation T.", "quantifier": "all transforms and points over the reals", "why_tests_cant": "continuous domain", "anchors": ["src/yapcad/kinematics/transform.py: to_euler_xyz, from_euler_xyz"]}
{"id": "C61", "title": "Saving and loading preserves every mechanism", "statement": "to_dict/from_dict preserves also mechanisms that use frames of the global datum or an empty part name.", "quantifier": "all chains constructible by the API", "why_tests_cant": "all tree shapes", "anchors": ["src/yapcad/kinematics/chain.py: to_dict, from_dict, _topological_sort"]}
{"id": "C62", "title": "Tree queries", "statement": "get_all_descendants lists every proper descendant exactly once and nothing else; get_chain_to_root starts at the part, ends at the global datum and lists exactly the ancestors.", "quantifier": "all reachable chains", "why_tests_cant": "all tree shapes", "anchors": ["src/yapcad/kinematics/chain.py: get_all_descendants, get_chain_to_root"]}
{"id": "C63", "title": "No stray DEDENT", "statement": "In the token stream of any accepted source every DEDENT closes an earlier INDENT.", "quantifier": "every accepted source text", "why_tests_cant": "needs every shape of indentation history, including dedents to a column never opened", "anchors": ["src/yapcad/dsl/lexer.py: _handle_line_start"]}
{"id": "C64", "title": "Comments and strings do not affect block structure", "statement": "Removing a comment, or putting a line break inside a triple-quoted string, does not change the types of the other tokens of the line.", "quantifier": "every source text that tokenizes", "why_tests_cant": "depends on every interleaving of comments, strings, brackets, indentation and newlines", "anchors": ["src/yapcad/dsl/lexer.py: _make_token, _scan_token", "src/yapcad/dsl/tokens.py: SourceSpan"]}
{"id": "C65", "title": "Names, reserved words and operators are recognised", "statement": "Every ASCII name that is not a reserved word tokenizes to one IDENTIFIER with that name; every reserved word and operator of the reference tokenizes to its own token type.", "quantifier": "every name; every reserved word and operator of the reference", "why_tests_cant": "There are infinitely many names.", "anchors": ["src/yapcad/dsl/lexer.py: Lexer._scan_identifier_or_keyword", "src/yapcad/dsl/tokens.py: KEYWORDS"]}
{"id": "C66", "title": "The only exceptions of the parser are parser errors", "statement": "Parsing a token stream either returns a module or raises a parser error, never another exception.", "quantifier": "every list of tokens", "why_tests_cant": "backtracking and recursive descent over arbitrary streams", "anchors": ["src/yapcad/dsl/parser.py: Parser.parse_module, _parse_expression"]}
{"id": "C67", "title": "@native functions can be written", "statement": "A function decorated with @native (the replacement the lexer recommends for the deprecated native blocks) is accepted.", "quantifier": "every list of tokens", "why_tests_cant": "backtracking and recursive descent over arbitrary streams", "anchors": ["src/yapcad/dsl/parser.py: _parse_decorator, parse_module", "src/yapcad/dsl/tokens.py: KEYWORDS"]}
{"id": "C68", "title": "Permitted assignments compose", "statement": "If a accepts b and b accepts c then a accepts c.", "quantifier": "all types, of any nesting depth", "why_tests_cant": "infinitely many nested types", "anchors": ["src/yapcad/dsl/types.py: Type.is_assignable_from, common_type"]}
{"id": "C69", "title": "common_type finds a common type when there is one", "statement": "If some type accepts both a and b, common_type(a, b) is not None.", "quantifier": "all types, of any nesting depth", "why_tests_cant": "infinitely many nested types", "anchors": ["src/yapcad/dsl/types.py: Type.is_assignable_from, common_type"]}
{"id": "C70", "title": "none fits every optional type", "statement": "A variable of type T? accepts none.", "quantifier": "all types, of any nesting depth", "why_tests_cant": "infinitely many nested types", "anchors": ["src/yapcad/dsl/types.py: Type.is_assignable_from, common_type"]}
{"id": "C71", "title": "Every recursive command is named in a warning", "statement": "Each command that can reach itself through calls occurs in some reported cycle.", "quantifier": "every module call graph", "why_tests_cant": "all finite directed graphs", "anchors": ["src/yapcad/dsl/checker.py: _check_recursion"]}
{"id": "C72", "title": "Every DSL program terminates", "statement": "execute() returns for every module, command and parameters: the recursion limit and finite loops make non-termination impossible.", "quantifier": "all modules and inputs", "why_tests_cant": "halting over all programs", "anchors": ["src/yapcad/dsl/runtime/interpreter.py: Interpreter.execute, _call_command"]}
{"id": "C73", "title": "A failed requirement in a called command means a failed execution", "statement": "If any require/assert evaluated during an execution is false - in the command itself or in a command it calls - the execution is not reported as successful.", "quantifier": "all programs and inputs", "why_tests_cant": "arbitrarily nested calls", "anchors": ["src/yapcad/dsl/runtime/interpreter.py: _exec_require, _call_command, execute"]}
{"id": "C74", "title": "and/or short-circuit", "statement": "`a and b` does not evaluate b when a is false, `a or b` does not evaluate b when a is true, so a guard protects the guarded expression.", "quantifier": "all operand expressions", "why_tests_cant": "needs all expressions including failing ones", "anchors": ["src/yapcad/dsl/runtime/interpreter.py: _eval_binary_op"]}
{"id": "C75", "title": "An expression statement is evaluated wherever it stands", "statement": "An expression statement at the end of a command body is evaluated like any other.", "quantifier": "all command bodies", "why_tests_cant": "all bodies", "anchors": ["src/yapcad/dsl/runtime/interpreter.py: _execute_command", "src/yapcad/dsl/parser.py: _parse_block"]}
{"id": "C76", "title": "Names bound by a match pattern are local to its arm", "statement": "A match pattern that binds a name does not change the variables of the enclosing command.", "quantifier": "all programs and inputs", "why_tests_cant": "Needs every program and state, not sampled programs.", "anchors": ["src/yapcad/dsl/runtime/interpreter.py: _eval_match, _match_pattern"]}
{"id": "C77", "title": "Every run-time error is reported as a failed result", "statement": "execute() always returns a result; errors during evaluation are reported in it.", "quantifier": "all programs and inputs", "why_tests_cant": "Needs every program and state, not sampled programs.", "anchors": ["src/yapcad/dsl/runtime/interpreter.py: execute"]}
{"id": "C78", "title": "A default value does not depend on the caller", "statement": "Calling a command without an optional argument gives the same result in every caller.", "quantifier": "all programs and inputs", "why_tests_cant": "Needs every program and state, not sampled programs.", "anchors": ["src/yapcad/dsl/runtime/interpreter.py: _call_command"]}
{"id": "C79", "title": "Keyword arguments of a command call are honoured", "statement": "Keyword arguments given next to positional ones reach the parameter they name.", "quantifier": "all programs and inputs", "why_tests_cant": "Needs every program and state, not sampled programs.", "anchors": ["src/yapcad/dsl/runtime/interpreter.py: _eval_function_call"]}
{"id": "C80", "title": "The result of a command can be used as a condition", "statement": "A command that emits a bool can be called in a condition.", "quantifier": "all programs and inputs", "why_tests_cant": "Needs every program and state, not sampled programs.", "anchors": ["src/yapcad/dsl/runtime/interpreter.py: _exec_if, _call_command"]}
{"id": "C81", "title": "Method calls can succeed", "statement": "obj.method(...) evaluates to a value for some object, method and arguments.", "quantifier": "all programs and inputs", "why_tests_cant": "Needs every program and state, not sampled programs.", "anchors": ["src/yapcad/dsl/runtime/interpreter.py: _eval_method_call"]}
{"id": "C82", "title": "If expressions give the value of their block", "statement": "An if expression evaluates to the value of the selected block.", "quantifier": "all programs and inputs", "why_tests_cant": "Needs every program and state, not sampled programs.", "anchors": ["src/yapcad/dsl/runtime/interpreter.py: _eval_if_expr"]}
{"id": "C83", "title": "Inline Python sees the innermost variable of each name", "statement": "An inline python block sees the same value of a variable as DSL code at that place.", "quantifier": "all programs and inputs", "why_tests_cant": "Needs every program and state, not sampled programs.", "anchors": ["src/yapcad/dsl/runtime/interpreter.py: _exec_python_block"]}
{"id": "C84", "title": "Integer and boolean expressions mean what they mean in mathematics", "statement": "An expression built from integer literals, integer variables, +, -, *, //, %, **, comparisons and not/and/or that has a value mathematically (floor division and modulus by a non-zero number, non-negative exponents) evaluates to exactly that value, with unbounded integers and without side effect.", "quantifier": "all such expressions and variable values", "why_tests_cant": "Needs every program and state, not sampled programs.", "anchors": ["src/yapcad/dsl/runtime/interpreter.py: _eval_binary_op, _eval_unary_op"]}
{"id": "C85", "title": "Accepted programs declare names before use", "statement": "If check() reports no errors for a module that uses function and type names only as such and passes no keyword arguments, then in every command each variable used is a parameter or was declared earlier in an enclosing scope, each called name is a built-in, a type or a function of the module, annotations name known types, no scope declares a name twice, and no two functions of the module share a name.", "quantifier": "every module (parsed program), every set of built-ins", "why_tests_cant": "all programs of any size", "anchors": ["src/yapcad/dsl/checker.py:TypeChecker.check", "src/yapcad/dsl/symbols.py:SymbolTable"]}
{"id": "C86", "title": "Accepted programs do not run into undefined variables", "statement": "For such a program, whose parameters without defaults come first and whose defaults mention no parameters, compile_and_run with all required parameters given never fails with 'Undefined variable'.", "quantifier": "every source text, command, parameter values, host state", "why_tests_cant": "all programs of any size", "anchors": ["src/yapcad/dsl/checker.py:TypeChecker.check", "src/yapcad/dsl/symbols.py:SymbolTable", "src/yapcad/dsl/runtime/interpreter.py:compile_and_run"]}
{"id": "C87", "title": "A program with lexical, syntax or type errors is not run", "statement": "compile_and_run runs a command only if the source tokenizes, parses and checks without errors; otherwise it has no effect and returns a failure naming the stage.", "quantifier": "every source text and command", "why_tests_cant": "all programs of any size", "anchors": ["src/yapcad/dsl/checker.py:TypeChecker.check", "src/yapcad/dsl/symbols.py:SymbolTable", "src/yapcad/dsl/runtime/interpreter.py:compile_and_run"]}
{"id": "C88", "title": "A return statement type-checks", "statement": "check() accepts a command with a return statement whose value has the declared type.", "quantifier": "every source text and command", "why_tests_cant": "all programs of any size", "anchors": ["src/yapcad/dsl/checker.py:TypeChecker.check", "src/yapcad/dsl/symbols.py:SymbolTable", "src/yapcad/dsl/runtime/interpreter.py:compile_and_run"]}
{"id": "C89", "title": "Every accepted program is free of undefined variables", "statement": "An accepted program never fails with 'Undefined variable'.", "quantifier": "every source text, command, parameter values, host state", "why_tests_cant": "all programs of any size", "anchors": ["src/yapcad/dsl/checker.py:TypeChecker.check", "src/yapcad/dsl/symbols.py:SymbolTable", "src/yapcad/dsl/runtime/interpreter.py:compile_and_run"]}
{"id": "C90", "title": "Calls of commands have the right number of arguments", "statement": "In an accepted program every call of a command passes as many arguments as it takes.", "quantifier": "every module (parsed program), every set of built-ins", "why_tests_cant": "all programs of any size", "anchors": ["src/yapcad/dsl/checker.py:TypeChecker.check", "src/yapcad/dsl/symbols.py:SymbolTable", "src/yapcad/dsl/runtime/interpreter.py:compile_and_run"]}
{"id": "C91", "title": "The checker accepts what the interpreter defines", "statement": "A program whose operations the interpreter defines on its values is accepted.", "quantifier": "every module (parsed program), every set of built-ins", "why_tests_cant": "all programs of any size", "anchors": ["src/yapcad/dsl/checker.py:TypeChecker.check", "src/yapcad/dsl/symbols.py:SymbolTable", "src/yapcad/dsl/runtime/interpreter.py:compile_and_run"]}
{"id": "C92", "title": "Recursion in the source is warned about", "statement": "For an accepted program (restricted as in C85) in which no command is named like a built-in or a type, check() gives a recursion warning if and only if some command can reach itself through calls written in the source.", "quantifier": "every module", "why_tests_cant": "all programs of any size", "anchors": ["src/yapcad/dsl/checker.py:_check_recursion", "src/yapcad/dsl/checker.py:_check_function_call"]}
{"id": "C93", "title": "Every recursive program is warned about", "statement": "A recursive command always gets a recursion warning.", "quantifier": "every module", "why_tests_cant": "all programs of any size", "anchors": ["src/yapcad/dsl/checker.py:_check_recursion", "src/yapcad/dsl/checker.py:_check_function_call"]}
{"id": "C94", "title": "Checker and interpreter agree on the built-ins they share", "statement": "Every built-in that both know, except text_solid, takes at run time every number of arguments between the required and the declared parameters of its checker signature.", "quantifier": "every built-in function and every number of arguments", "why_tests_cant": "two tables of 151 entries, and every argument count", "anchors": ["src/yapcad/dsl/symbols.py:_init_builtins", "src/yapcad/dsl/runtime/builtins.py:BuiltinRegistry"]}
{"id": "C95", "title": "Every built-in the checker knows exists", "statement": "A call of a built-in the checker accepts reaches an implementation.", "quantifier": "every built-in function and every number of arguments", "why_tests_cant": "two tables of 151 entries, and every argument count", "anchors": ["src/yapcad/dsl/symbols.py:_init_builtins", "src/yapcad/dsl/runtime/builtins.py:BuiltinRegistry"]}
{"id": "C96", "title": "Every registered built-in can be used", "statement": "A registered built-in can be called from an accepted program.", "quantifier": "every built-in function and every number of arguments", "why_tests_cant": "two tables of 151 entries, and every argument count", "anchors": ["src/yapcad/dsl/symbols.py:_init_builtins", "src/yapcad/dsl/runtime/builtins.py:BuiltinRegistry"]}
{"id": "C97", "title": "Accepted calls of built-ins have an acceptable number of arguments", "statement": "An accepted call of a built-in passes a number of arguments its implementation takes.", "quantifier": "every built-in function and every number of arguments", "why_tests_cant": "two tables of 151 entries, and every argument count", "anchors": ["src/yapcad/dsl/symbols.py:_init_builtins", "src/yapcad/dsl/runtime/builtins.py:BuiltinRegistry"]}
{"id": "C98", "title": "A created package validates whatever hash algorithm was requested", "statement": "create_package_from_entities(hash_algorithm=...) followed by validate_package succeeds.", "quantifier": "all options and operation histories", "why_tests_cant": "all histories and algorithms", "anchors": ["src/yapcad/package/core.py:create_package_from_entities", "src/yapcad/package/core.py:add_geometry_file", "src/yapcad/package/core.py:PackageManifest", "src/yapcad/package/validator.py:validate_package", "src/yapcad/package/validator.py:_check_file", "src/yapcad/package/validator.py:_validate_materials"]}
{"id": "C99", "title": "Additions keep a package valid", "statement": "A successful add_geometry_file followed by save leaves a valid package valid.", "quantifier": "all options and operation histories", "why_tests_cant": "all histories and algorithms", "anchors": ["src/yapcad/package/core.py:create_package_from_entities", "src/yapcad/package/core.py:add_geometry_file", "src/yapcad/package/core.py:PackageManifest", "src/yapcad/package/validator.py:validate_package", "src/yapcad/package/validator.py:_check_file", "src/yapcad/package/validator.py:_validate_materials"]}
{"id": "C100", "title": "A failing save leaves the stored manifest alone", "statement": "If PackageManifest.save() raises, the manifest on disk is unchanged.", "quantifier": "all options and operation histories", "why_tests_cant": "all histories and algorithms", "anchors": ["src/yapcad/package/core.py:create_package_from_entities", "src/yapcad/package/core.py:add_geometry_file", "src/yapcad/package/core.py:PackageManifest"]}
{"id": "C101", "title": "A failing add_geometry_file has no effect", "statement": "If add_geometry_file raises, package and files are unchanged.", "quantifier": "all sequences of additions", "why_tests_cant": "all histories", "anchors": ["src/yapcad/package/core.py:create_package_from_entities", "src/yapcad/package/core.py:add_geometry_file", "src/yapcad/package/core.py:PackageManifest"]}
{"id": "C102", "title": "The signed digest covers all text", "statement": "Manifests that differ in any text outside signatures have different digests.", "quantifier": "all manifests", "why_tests_cant": "all manifests and edits", "anchors": ["src/yapcad/package/signing.py:_compute_canonical_manifest_hash", "src/yapcad/package/signing.py:sign_package", "src/yapcad/package/signing.py:verify_package"]}
{"id": "C103", "title": "The reported signer made the signature", "statement": "A signature reported VALID with signer S was made by S.", "quantifier": "all histories of sign/verify", "why_tests_cant": "all signing histories", "anchors": ["src/yapcad/package/signing.py:_compute_canonical_manifest_hash", "src/yapcad/package/signing.py:sign_package", "src/yapcad/package/signing.py:verify_package"]}
{"id": "C104", "title": "Adding a signature keeps earlier ones verifiable", "statement": "After sign_package(add=True) every signature that was VALID before is still VALID.", "quantifier": "all histories of sign/verify", "why_tests_cant": "all signing histories", "anchors": ["src/yapcad/package/signing.py:_compute_canonical_manifest_hash", "src/yapcad/package/signing.py:sign_package", "src/yapcad/package/signing.py:verify_package"]}
{"id": "C105", "title": "An untrusted-but-valid report is about a real signature", "statement": "VALID_UNTRUSTED is reported only for a signature over the manifest.", "quantifier": "all histories of sign/verify", "why_tests_cant": "all signing histories", "anchors": ["src/yapcad/package/signing.py:_compute_canonical_manifest_hash", "src/yapcad/package/signing.py:sign_package", "src/yapcad/package/signing.py:verify_package"]}
{"id": "C106", "title": "Verification notices altered package files", "statement": "verify_package does not report VALID for a package whose listed files were altered after signing.", "quantifier": "all histories of sign/verify", "why_tests_cant": "all signing histories", "anchors": ["src/yapcad/package/signing.py:_compute_canonical_manifest_hash", "src/yapcad/package/signing.py:sign_package", "src/yapcad/package/signing.py:verify_package"]}
{"id": "C107", "title": "is_valid agrees with overall_status", "statement": "is_valid is true only if overall_status is VALID.", "quantifier": "all histories of sign/verify", "why_tests_cant": "all signing histories", "anchors": ["src/yapcad/package/signing.py:_compute_canonical_manifest_hash", "src/yapcad/package/signing.py:sign_package", "src/yapcad/package/signing.py:verify_package"]}
{"id": "C108", "title": "Lookups by part follow a renamed part", "statement": "After the part_name of a registered interface is assigned, looking up by part finds it under its part_name.", "quantifier": "all histories", "why_tests_cant": "all histories", "anchors": ["src/yapcad/collision/registry.py:InterfaceRegistry"]}
{"id": "C109", "title": "Assembly checks cover every pair once", "statement": "check_assembly answers about every unordered pair of different parts that is not skipped exactly once and about no other; a result says collision exactly if both geometries are available, both transforms usable and the geometric test says so, and excused exactly if it collides and the registered interfaces fit; the summary's counts add up and list exactly the errors; the geometry cache is invisible for a provider that always gives the same answers.", "quantifier": "all assemblies, registries, geometric tests", "why_tests_cant": "all assemblies of any size", "anchors": ["src/yapcad/collision/detector.py:CollisionDetector"]}
{"id": "C110", "title": "Interfaces with parallel axes that meet are found", "statement": "If the bounding cylinders of two interfaces with parallel or antiparallel axes have a common point, overlaps_with reports it (for every positive tolerance).", "quantifier": "all cylinders in space", "why_tests_cant": "infinitely many placements", "anchors": ["src/yapcad/collision/interface.py:Interface.overlaps_with"]}
{"id": "C111", "title": "Interfaces that meet are found", "statement": "If the bounding cylinders of two interfaces have a common point, overlaps_with reports it.", "quantifier": "all cylinders in space", "why_tests_cant": "infinitely many placements", "anchors": ["src/yapcad/collision/interface.py:Interface.overlaps_with"]}
{"id": "C112", "title": "Compatibility is symmetric", "statement": "A is compatible with B exactly if B is with A.", "quantifier": "all pairs of interfaces", "why_tests_cant": "infinitely many pairs", "anchors": ["src/yapcad/collision/gear_interface.py:GearMeshInterface.check_compatibility", "src/yapcad/collision/gear_interface.py:create_planetary_gearbox_interfaces"]}
{"id": "C113", "title": "A detector uses the registry it was given", "statement": "Interfaces registered in the registry passed to CollisionDetector are taken into account.", "quantifier": "all registries", "why_tests_cant": "all histories", "anchors": ["src/yapcad/collision/detector.py:CollisionDetector"]}
{"id": "C114", "title": "Excuses depend on where the parts are", "statement": "A collision of two parts is excused only if their interfaces meet where the parts are placed.", "quantifier": "all placements", "why_tests_cant": "infinitely many placements", "anchors": ["src/yapcad/collision/detector.py:CollisionDetector"]}
{"id": "C115", "title": "Planetary gearbox interfaces", "statement": "The interfaces made for a planetary gearbox have distinct names, can all be registered, excuse the sun meeting every planet, and put every planet at the theoretical center distance from the sun.", "quantifier": "all sizes and numbers of planets", "why_tests_cant": "any number of planets", "anchors": ["src/yapcad/collision/gear_interface.py:GearMeshInterface.check_compatibility", "src/yapcad/collision/gear_interface.py:create_planetary_gearbox_interfaces"]}
{"id": "C116", "title": "Interfering planets are reported", "statement": "Two planets whose pitch circles cross are not excused as meshing gears.", "quantifier": "all sizes and numbers of planets", "why_tests_cant": "any number of planets", "anchors": ["src/yapcad/collision/gear_interface.py:GearMeshInterface.check_compatibility", "src/yapcad/collision/gear_interface.py:create_planetary_gearbox_interfaces"]}
{"id": "C117", "title": "Registering a datum leaves other sources alone", "statement": "register_datum for one source changes no other source.", "quantifier": "all histories of register/get", "why_tests_cant": "all histories and interleavings", "anchors": ["src/yapcad/assembly/datum_registry.py:DatumRegistry"]}
{"id": "C118", "title": "Looking up a file does not undo a registration", "statement": "What was registered for a part is still found after a lookup in another source.", "quantifier": "all histories of register/get", "why_tests_cant": "all histories and interleavings", "anchors": ["src/yapcad/assembly/datum_registry.py:DatumRegistry"]}
{"id": "C119", "title": "Registering a datum adds to its source", "statement": "After register_datum the datums in the source's file are still found.", "quantifier": "all histories of register/get", "why_tests_cant": "all histories and interleavings", "anchors": ["src/yapcad/assembly/datum_registry.py:DatumRegistry"]}
{"id": "C120", "title": "A failed lookup has no lasting effect", "statement": "A source that becomes available (a search path is added) is found, and a source that does not exist is not listed.", "quantifier": "all histories of register/get", "why_tests_cant": "all histories and interleavings", "anchors": ["src/yapcad/assembly/datum_registry.py:DatumRegistry"]}
{"id": "C121", "title": "A part's datums can be registered", "statement": "register_part registers every datum of the part.", "quantifier": "all histories of register/get", "why_tests_cant": "all histories and interleavings", "anchors": ["src/yapcad/assembly/datum_registry.py:DatumRegistry"]}
{"id": "C122", "title": "Datums move with their part", "statement": "Applying a rigid motion to a datum never fails, moves its origin as a point, turns the vectors of its kind as directions of unit length, keeps type and radius; two motions in turn give what their product gives; rotations, translations and products are rigid motions.", "quantifier": "all valid datums and rigid motions", "why_tests_cant": "infinitely many datums and motions", "anchors": ["src/yapcad/assembly/datum.py:Datum.transform", "src/yapcad/assembly/datum.py:Datum.__post_init__"]}
{"id": "C123", "title": "All vectors of a datum move as directions", "statement": "A translation leaves every vector of a datum as it was.", "quantifier": "all valid datums and rigid motions", "why_tests_cant": "infinitely many datums and motions", "anchors": ["src/yapcad/assembly/datum.py:Datum.transform", "src/yapcad/assembly/datum.py:Datum.__post_init__"]}
{"id": "C124", "title": "Placement matrices of datums are rigid", "statement": "For every valid point, axis, plane or circle datum, datum_to_transform_matrix is a rigid right-handed placement that puts the origin at the datum and the z axis along its direction.", "quantifier": "all valid datums", "why_tests_cant": "infinitely many directions", "anchors": ["src/yapcad/assembly/datum_registry.py:datum_to_transform_matrix"]}
{"id": "C125", "title": "Placement matrices of frames are rigid", "statement": "The same for frame datums.", "quantifier": "all valid datums", "why_tests_cant": "infinitely many directions", "anchors": ["src/yapcad/assembly/datum_registry.py:datum_to_transform_matrix"]}
{"id": "C126", "title": "Duplicate datums are reported", "statement": "validate_datums reports exactly the pairs of datums of one type at one place, each once.", "quantifier": "all parts", "why_tests_cant": "all sets of datums", "anchors": ["src/yapcad/assembly/datum.py:PartDefinition.validate_datums"]}
{"id": "C127", "title": "Parallel datums are reported", "statement": "validate_datums reports exactly the coincident axes and planes that are parallel.", "quantifier": "all parts", "why_tests_cant": "all sets of datums", "anchors": ["src/yapcad/assembly/datum.py:PartDefinition.validate_datums"]}
{"id": "C128", "title": "Binary STL files are recognised whatever the name", "statement": "Reading back a binary STL gives the triangles written, for every name and all triangles.", "quantifier": "all triangle lists", "why_tests_cant": "all sizes; header/heuristic interactions", "anchors": ["src/yapcad/io/stl.py:_write_binary", "src/yapcad/io/stl.py:_is_binary_stl", "src/yapcad/io/stl.py:_parse_binary_stl", "src/yapcad/io/stl.py:_triangles_to_surface", "src/yapcad/io/stl.py:read_stl"]}
{"id": "C129", "title": "STL text round trip", "statement": "Triangles with finite numbers written as a text STL under a name without the word \"facet\" parse back to the same triangles in the same order, to the precision of the text; a text file of less than 7.5 GB is not taken for a binary one.", "quantifier": "all triangle lists and names", "why_tests_cant": "all sizes and names", "anchors": ["src/yapcad/io/stl.py:_write_ascii", "src/yapcad/io/stl.py:_parse_ascii_stl"]}
{"id": "C130", "title": "Triangle normals and the triangle view", "statement": "A triangle's normal is a unit vector at right angles to it on the side from which its corners run counter-clockwise, and exists exactly when twice the area exceeds epsilon; orienting a triangle keeps its corners and makes its normal agree with the preferred direction; the triangle view of surfaces with valid indices shows exactly the triangular faces of more than tolerance area, in order, with their normals.", "quantifier": "all triangles and surfaces", "why_tests_cant": "infinitely many triangles", "anchors": ["src/yapcad/mesh.py:mesh_view", "src/yapcad/geometry_utils.py:triangle_normal", "src/yapcad/geometry_utils.py:orient_triangle"]}
{"id": "C131", "title": "Only faces of zero area are left out", "statement": "The triangle view (and so every export) leaves out only faces of zero area.", "quantifier": "all triangles and surfaces", "why_tests_cant": "infinitely many triangles", "anchors": ["src/yapcad/mesh.py:mesh_view", "src/yapcad/geometry_utils.py:triangle_normal", "src/yapcad/geometry_utils.py:orient_triangle"]}
{"id": "C132", "title": "The part name does not affect the triangles in a text STL", "statement": "Text STL files read back to the triangles written, whatever the name.", "quantifier": "all triangle lists and names", "why_tests_cant": "all sizes and names", "anchors": ["src/yapcad/io/stl.py:_write_ascii", "src/yapcad/io/stl.py:_parse_ascii_stl"]}
{"id": "C133", "title": "A query on an empty tree finds nothing", "statement": "getElements on a tree without elements returns the empty list.", "quantifier": "all element sets, query boxes and parameters", "why_tests_cant": "all geometry configurations", "anchors": ["src/yapcad/octtree.py:NTree.getElements", "src/yapcad/octtree.py:NTree.updateTree", "src/yapcad/octtree.py:boxoverlap2", "src/yapcad/octtree.py:bbox2oct", "src/yapcad/octtree.py:box2boxes"]}
{"id": "C134", "title": "A query that raises can be repeated", "statement": "A query answers the same however often it is made.", "quantifier": "all element sets, query boxes and parameters", "why_tests_cant": "all geometry configurations", "anchors": ["src/yapcad/octtree.py:NTree.getElements", "src/yapcad/octtree.py:NTree.updateTree", "src/yapcad/octtree.py:boxoverlap2", "src/yapcad/octtree.py:bbox2oct", "src/yapcad/octtree.py:box2boxes"]}
{"id": "C135", "title": "Queries find points", "statement": "Queries return exactly the elements whose bounding boxes overlap, for points as well.", "quantifier": "all element sets, query boxes and parameters", "why_tests_cant": "all geometry configurations", "anchors": ["src/yapcad/octtree.py:NTree.getElements", "src/yapcad/octtree.py:NTree.updateTree", "src/yapcad/octtree.py:boxoverlap2", "src/yapcad/octtree.py:bbox2oct", "src/yapcad/octtree.py:box2boxes"]}
{"id": "C136", "title": "A tree does not share its list with the caller", "statement": "Adding an element changes the tree only, and changing the caller's list does not change the tree.", "quantifier": "all element sets, query boxes and parameters", "why_tests_cant": "all geometry configurations", "anchors": ["src/yapcad/octtree.py:NTree.__init__", "src/yapcad/octtree.py:NTree.addElement"]}
{"id": "C137", "title": "The centre of a tree with elements can be recomputed", "statement": "updateCenter() succeeds on every tree with elements.", "quantifier": "all element sets, query boxes and parameters", "why_tests_cant": "all geometry configurations", "anchors": ["src/yapcad/octtree.py:NTree.updateCenter"]}
{"id": "C138", "title": "NURBS curves end at the last control point", "statement": "A NURBS curve with clamped knots ends at its last control point.", "quantifier": "all control polygons, degrees and parameters", "why_tests_cant": "continuous domain, all degrees", "anchors": ["src/yapcad/spline.py:_nip", "src/yapcad/spline.py:evaluate_nurbs"]}
{"id": "C139", "title": "Closed B-splines can be evaluated", "statement": "A closed B-spline of any degree can be evaluated and sampled.", "quantifier": "all control polygons, degrees and parameters", "why_tests_cant": "continuous domain, all degrees", "anchors": ["src/yapcad/spline.py:bspline_point", "src/yapcad/spline.py:_uniform_knot_vector"]}
{"id": "C140", "title": "A copied matrix is independent", "statement": "A Matrix built from another is a copy: later changes to one never change the other.", "quantifier": "all sequences of operations on any number of matrices", "why_tests_cant": "all mutation histories", "anchors": ["src/yapcad/xform.py:Matrix.__init__", "src/yapcad/xform.py:Matrix.get", "src/yapcad/xform.py:Matrix.set", "src/yapcad/xform.py:Matrix.getrow", "src/yapcad/xform.py:Matrix.getcol", "src/yapcad/xform.py:Matrix.setrow", "src/yapcad/xform.py:Matrix.setcol", "src/yapcad/xform.py:Matrix.mul"]}
{"id": "C141", "title": "A row set from another matrix is copied", "statement": "A.setrow(i, B.getrow(k)) copies the row: later changes to A leave B alone.", "quantifier": "all sequences of operations on any number of matrices", "why_tests_cant": "all mutation histories", "anchors": ["src/yapcad/xform.py:Matrix.__init__", "src/yapcad/xform.py:Matrix.get", "src/yapcad/xform.py:Matrix.set", "src/yapcad/xform.py:Matrix.getrow", "src/yapcad/xform.py:Matrix.getcol", "src/yapcad/xform.py:Matrix.setrow", "src/yapcad/xform.py:Matrix.setcol", "src/yapcad/xform.py:Matrix.mul"]}
{"id": "C142", "title": "A column can be set from a row of the same matrix", "statement": "A.setcol(j, A.getrow(i)) stores the row the matrix had.", "quantifier": "all sequences of operations on any number of matrices", "why_tests_cant": "all mutation histories", "anchors": ["src/yapcad/xform.py:Matrix.__init__", "src/yapcad/xform.py:Matrix.get", "src/yapcad/xform.py:Matrix.set", "src/yapcad/xform.py:Matrix.getrow", "src/yapcad/xform.py:Matrix.getcol", "src/yapcad/xform.py:Matrix.setrow", "src/yapcad/xform.py:Matrix.setcol", "src/yapcad/xform.py:Matrix.mul"]}
{"id": "C143", "title": "Surfaces follow changes", "statement": "After a change, surface() describes the changed figure.", "quantifier": "all figures, all figure functions, all such histories", "why_tests_cant": "all interleavings of updates and cached queries", "anchors": ["src/yapcad/geometry.py:Geometry.translate", "src/yapcad/geometry.py:Geometry.scale", "src/yapcad/geometry.py:Geometry.rotate", "src/yapcad/geometry.py:Geometry.mirror", "src/yapcad/geometry.py:Geometry.transform", "src/yapcad/geometry.py:Geometry._updateInternals", "src/yapcad/geometry.py:Geometry.length", "src/yapcad/geometry.py:Geometry.center", "src/yapcad/geometry.py:Geometry.bbox", "src/yapcad/geometry.py:Geometry.geom", "src/yapcad/geometry.py:Geometry.surface", "src/yapcad/geometry.py:Geometry.elem", "src/yapcad/geometry.py:Geometry.update"]}
{"id": "C144", "title": "Bounding boxes of solids follow changes", "statement": "After a change, bbox of a solid is that of the changed solid.", "quantifier": "all figures, all figure functions, all such histories", "why_tests_cant": "all interleavings of updates and cached queries", "anchors": ["src/yapcad/geometry.py:Geometry.translate", "src/yapcad/geometry.py:Geometry.scale", "src/yapcad/geometry.py:Geometry.rotate", "src/yapcad/geometry.py:Geometry.mirror", "src/yapcad/geometry.py:Geometry.transform", "src/yapcad/geometry.py:Geometry._updateInternals", "src/yapcad/geometry.py:Geometry.length", "src/yapcad/geometry.py:Geometry.center", "src/yapcad/geometry.py:Geometry.bbox", "src/yapcad/geometry.py:Geometry.geom", "src/yapcad/geometry.py:Geometry.surface", "src/yapcad/geometry.py:Geometry.elem", "src/yapcad/geometry.py:Geometry.update"]}
{"id": "C145", "title": "Assignments to elem are seen", "statement": "After g.elem = e, the properties are those of e.", "quantifier": "all figures, all figure functions, all such histories", "why_tests_cant": "all interleavings of updates and cached queries", "anchors": ["src/yapcad/geometry.py:Geometry.translate", "src/yapcad/geometry.py:Geometry.scale", "src/yapcad/geometry.py:Geometry.rotate", "src/yapcad/geometry.py:Geometry.mirror", "src/yapcad/geometry.py:Geometry.transform", "src/yapcad/geometry.py:Geometry._updateInternals", "src/yapcad/geometry.py:Geometry.length", "src/yapcad/geometry.py:Geometry.center", "src/yapcad/geometry.py:Geometry.bbox", "src/yapcad/geometry.py:Geometry.geom", "src/yapcad/geometry.py:Geometry.surface", "src/yapcad/geometry.py:Geometry.elem", "src/yapcad/geometry.py:Geometry.update"]}
{"id": "C146", "title": "A failing query keeps failing", "statement": "A query whose figure cannot be measured raises each time.", "quantifier": "all figures, all figure functions, all such histories", "why_tests_cant": "all interleavings of updates and cached queries", "anchors": ["src/yapcad/geometry.py:Geometry.translate", "src/yapcad/geometry.py:Geometry.scale", "src/yapcad/geometry.py:Geometry.rotate", "src/yapcad/geometry.py:Geometry.mirror", "src/yapcad/geometry.py:Geometry.transform", "src/yapcad/geometry.py:Geometry._updateInternals", "src/yapcad/geometry.py:Geometry.length", "src/yapcad/geometry.py:Geometry.center", "src/yapcad/geometry.py:Geometry.bbox", "src/yapcad/geometry.py:Geometry.geom", "src/yapcad/geometry.py:Geometry.surface", "src/yapcad/geometry.py:Geometry.elem", "src/yapcad/geometry.py:Geometry.update"]}
{"id": "C147", "title": "Metadata helpers change only their own namespace and store what they are given", "statement": "A call of set_assembly, add_bolt_pattern, add_datum, add_surface, add_keepout, set_operation, set_material, add_tags or set_layer leaves every other top-level key as it was (except that missing schema, tags and layer, or a falsy layer, get their defaults) and, in its own namespace, every field it does not name. A successful set_* call stores each given argument, converted as documented; a successful add_* call appends exactly one entry with the given id, kind, ring and numbers after the existing entries.", "quantifier": "all metadata dictionaries, all keyword arguments", "why_tests_cant": "the metadata, arguments and order of calls are arbitrary", "anchors": ["src/yapcad/metadata.py: set_assembly, add_bolt_pattern, add_datum, add_surface, add_keepout, set_operation, set_material, add_tags, set_layer, _ensure_root"]}
{"id": "C148", "title": "Only allowed enumeration values are ever stored", "statement": "After any sequence of helper calls on new metadata, failing calls included, every stored joint_kind, ring, kind, policy and feature_kind is an allowed value (or None), bolt patterns have numeric radius, height and count; applying a meta hint keeps this unless a plain key names a whole namespace. A call with a value outside its enumeration raises and changes nothing.", "quantifier": "all histories of helper calls; all hints", "why_tests_cant": "the metadata, arguments and order of calls are arbitrary", "anchors": ["src/yapcad/metadata.py: set_assembly, add_bolt_pattern, add_datum, add_surface, add_keepout, set_operation, set_material, add_tags, set_layer, _ensure_root", "src/yapcad/dsl/meta_apply.py: apply_meta_hint, apply_meta_hint_to_raw"]}
{"id": "C149", "title": "Applying a meta hint twice is applying it once", "statement": "For a hint without tags and list fields, without a blank layer and without a plain key that is also the namespace of a dotted key, applying it again to the resulting metadata succeeds and changes nothing.", "quantifier": "all metadata, all such hints", "why_tests_cant": "the hint is arbitrary", "anchors": ["src/yapcad/dsl/meta_apply.py: apply_meta_hint, apply_meta_hint_to_raw"]}
{"id": "C150", "title": "The metadata transform is idempotent and keeps meaning", "statement": "Running the metadata transform on its own output changes neither hint nor diagnostics; it keeps keys and their order; and if it reports no error, applying the normalised hint has the same effect as applying the original one (target_filter lists being lists of strings).", "quantifier": "all hints, all metadata", "why_tests_cant": "the hint is arbitrary", "anchors": ["src/yapcad/dsl/transforms/metadata.py: MetadataTransform.transform", "src/yapcad/dsl/meta_apply.py: apply_meta_hint, apply_meta_hint_to_raw"]}
{"id": "C151", "title": "Stored operation kinds are kinds", "statement": "After set_operation succeeds, the operation has a kind out of subtract, intersect, union.", "quantifier": "all histories of helper calls; all hints", "why_tests_cant": "the metadata, arguments and order of calls are arbitrary", "anchors": ["src/yapcad/metadata.py: set_assembly, add_bolt_pattern, add_datum, add_surface, add_keepout, set_operation, set_material, add_tags, set_layer, _ensure_root"]}
{"id": "C152", "title": "Reapplying any hint changes nothing", "statement": "apply_meta_hint is idempotent for every hint, as its documentation says.", "quantifier": "all metadata, all such hints", "why_tests_cant": "the hint is arbitrary", "anchors": ["src/yapcad/dsl/meta_apply.py: apply_meta_hint, apply_meta_hint_to_raw"]}
{"id": "C153", "title": "Hints the transform accepts are accepted at run time", "statement": "A hint for which the metadata transform reports nothing can be applied; and values the runtime accepts are not reported as errors.", "quantifier": "all hints, all metadata", "why_tests_cant": "the hint is arbitrary", "anchors": ["src/yapcad/dsl/transforms/metadata.py: MetadataTransform.transform", "src/yapcad/dsl/meta_apply.py: apply_meta_hint, apply_meta_hint_to_raw"]}
{"id": "C154", "title": "Entity ids are stable", "statement": "No metadata helper changes entityId; asking for metadata with create=True keeps an existing entityId, otherwise stores the new one, and asking again changes nothing.", "quantifier": "all metadata, all helper calls, all generated ids", "why_tests_cant": "the metadata, arguments and order of calls are arbitrary", "anchors": ["src/yapcad/metadata.py: get_solid_metadata, ensure_solid_id, _ensure_root"]}
{"id": "C155", "title": "Reading metadata does not modify the object", "statement": "get_solid_metadata(s) with create=False leaves s as it was.", "quantifier": "all metadata, all helper calls, all generated ids", "why_tests_cant": "the metadata, arguments and order of calls are arbitrary", "anchors": ["src/yapcad/metadata.py: get_solid_metadata, get_surface_metadata"]}
{"id": "C156", "title": "A failing assembly helper adds nothing", "statement": "When set_assembly, add_bolt_pattern, add_datum, add_surface or add_keepout raises, the contents of the assembly namespace are as before.", "quantifier": "all metadata, all arguments", "why_tests_cant": "the metadata, arguments and order of calls are arbitrary", "anchors": ["src/yapcad/metadata.py: set_assembly, add_bolt_pattern, add_datum, add_surface, add_keepout, set_operation, set_material, add_tags, set_layer, _ensure_root"]}
{"id": "C157", "title": "A failing set_operation changes nothing", "statement": "When set_operation raises, the operation namespace is as before.", "quantifier": "all metadata, all arguments", "why_tests_cant": "the metadata, arguments and order of calls are arbitrary", "anchors": ["src/yapcad/metadata.py: set_assembly, add_bolt_pattern, add_datum, add_surface, add_keepout, set_operation, set_material, add_tags, set_layer, _ensure_root"]}
{"id": "C158", "title": "Tags stay distinct and in order", "statement": "add_tags keeps the existing tags as a prefix, appends only new nonempty tags from its argument, all of which are present afterwards, and never introduces a duplicate.", "quantifier": "all tag lists", "why_tests_cant": "the metadata, arguments and order of calls are arbitrary", "anchors": ["src/yapcad/metadata.py: add_tags, _append_tag"]}
{"id": "C159", "title": "A run computes what the program says", "statement": "For programs over integers, truth values and lists of integers (literals, variables, arithmetic, comparisons, and/or/not, conditional expressions, ranges, indexing, comprehensions with conditions, calls with positional, keyword and default arguments, the built-ins len, range, concat, reverse, abs, min and max; declarations, if/elif/else, for, require, emit, return): if, reading the source with the ordinary mathematical meaning of these constructs, the command emits value a and fails the requirements fs with calls nested at most d deep, and the recursion limit allows d, then execute() returns a result with that value, exactly those failed requirements in order, success iff a value was emitted and none failed.", "quantifier": "all programs of that fragment, all inputs, all call depths within the limit", "why_tests_cant": "the program is arbitrary and its recursion unbounded; examples only show single runs", "anchors": ["src/yapcad/dsl/runtime/interpreter.py: Interpreter.execute, _execute_statement, _evaluate, _eval_function_call, _call_command, _eval_list_comprehension, _wrap_parameters", "src/yapcad/dsl/runtime/builtins.py: _len, _range_func, _concat, _reverse, _abs, _min, _max"]}
{"id": "C160", "title": "Volume and closedness of a solid", "statement": "volumeof(x) returns a number exactly when x passes issolid(fast=False) and issolidclosed, and that number is the absolute value of the sum over all triangles of the signed tetrahedron volumes; otherwise it raises ValueError. When distinct corners are more than two tolerances apart, issolidclosed says True exactly when every side of a triangle is shared by exactly two sides (in either direction).", "quantifier": "all solids, any number of surfaces and faces", "why_tests_cant": "meshes, positions and angles range over unbounded sets; a unit test checks a few solids", "anchors": ["src/yapcad/geom3d.py: issolidclosed, volumeof, _point_to_key, _canonical_edge_key"]}
{"id": "C161", "title": "Motions keep a solid's volume, scaling multiplies it", "statement": "For a consistently oriented closed solid with separated corners, translatesolid, rotatesolid (unit axis) and mirrorsolid give a solid with the same volumeof; scalesolid multiplies it by |sx*sy*sz|.", "quantifier": "all such solids, displacements, angles, centres, unit axes, planes and factors", "why_tests_cant": "meshes, positions and angles range over unbounded sets; a unit test checks a few solids", "anchors": ["src/yapcad/geom3d.py: translatesolid, rotatesolid, mirrorsolid, scalesolid, volumeof"]}
{"id": "C162", "title": "Surface area", "statement": "surfacearea(s) is the sum of the triangles' areas; translation, rotation (unit axis), mirroring and reversal keep it, uniform scaling by k multiplies it by k*k.", "quantifier": "all surfaces whose face indices exist", "why_tests_cant": "meshes, positions and angles range over unbounded sets; a unit test checks a few solids", "anchors": ["src/yapcad/geom3d.py: surfacearea, translatesurface, rotatesurface, mirrorsurface, reversesurface, scalesurface", "src/yapcad/geom_util.py: triarea"]}
{"id": "C163", "title": "Normals stay unit and agree with the faces", "statement": "If the stored normals of a surface are unit and point along the right-hand normal of every face using them, the same holds after translatesurface, rotatesurface, mirrorsurface, reversesurface, uniform scaling by k != 0 and scaling by positive factors.", "quantifier": "all surfaces and transformations of these kinds", "why_tests_cant": "meshes, positions and angles range over unbounded sets; a unit test checks a few solids", "anchors": ["src/yapcad/geom3d.py: translatesurface, rotatesurface, mirrorsurface, reversesurface, scalesurface"]}
{"id": "C164", "title": "Bounding boxes of surfaces and solids", "statement": "surfacebbox and solidbbox return a box that contains every vertex and whose six sides are each touched by a vertex.", "quantifier": "all non-empty solids whose surfaces have at least two vertices", "why_tests_cant": "meshes, positions and angles range over unbounded sets; a unit test checks a few solids", "anchors": ["src/yapcad/geom3d.py: surfacebbox, solidbbox", "src/yapcad/geom.py: polybbox"]}
{"id": "C165", "title": "Building a surface triangle by triangle", "statement": "After adding any sequence of triangles to an empty surface with addTri2Surface: as many normals as vertices, no two vertices within the tolerance of each other, one face per triangle in order whose (existing) vertices are within the tolerance of the triangle's corners, unit normals, and every vertex is a corner of some triangle given. Adding raises exactly for triangles of zero area.", "quantifier": "all sequences of triangles", "why_tests_cant": "meshes, positions and angles range over unbounded sets; a unit test checks a few solids", "anchors": ["src/yapcad/geom3d.py: addTri2Surface, normfunc"]}
{"id": "C166", "title": "surf2lines draws each edge once", "statement": "surf2lines(s) returns one line per undirected index pair occurring as a side of a face: none missing, none twice, endpoints the vertices with these indices.", "quantifier": "all surfaces whose face indices exist", "why_tests_cant": "meshes, positions and angles range over unbounded sets; a unit test checks a few solids", "anchors": ["src/yapcad/geom3d.py: surf2lines"]}
{"id": "C167", "title": "Line and plane", "statement": "tri2p0n gives the plane of a non-degenerate triangle (unit normal by the right-hand rule; all corners at distance 0; ValueError iff twice the area is below the tolerance), its matrices are mutually inverse and measure the signed distance as z. linePlaneIntersect(l, triangle) returns only points of the line inside the triangle (of the segment, when inside=True) and finds them unless line and plane are within the tolerance of parallel; the same for the named coordinate planes.", "quantifier": "all lines and triangles", "why_tests_cant": "meshes, positions and angles range over unbounded sets; a unit test checks a few solids", "anchors": ["src/yapcad/geom3d.py: tri2p0n, signedPlaneDistance, linePlaneIntersect"]}
{"id": "C168", "title": "The volume of an accepted solid does not depend on where it is", "statement": "For every solid on which volumeof returns a number, translating it keeps the number.", "quantifier": "all solids, any number of surfaces and faces", "why_tests_cant": "meshes, positions and angles range over unbounded sets; a unit test checks a few solids", "anchors": ["src/yapcad/geom3d.py: issolidclosed, volumeof"]}
{"id": "C169", "title": "Scaling a surface about a centre fixes the centre", "statement": "scalesurface(s, k, cent=c) leaves a vertex at c in place.", "quantifier": "all such solids, displacements, angles, centres, unit axes, planes and factors", "why_tests_cant": "meshes, positions and angles range over unbounded sets; a unit test checks a few solids", "anchors": ["src/yapcad/geom3d.py: scalesurface"]}
{"id": "C170", "title": "Scaling keeps faces outward", "statement": "scalesolid of a solid with outward faces has outward faces.", "quantifier": "all such solids, displacements, angles, centres, unit axes, planes and factors", "why_tests_cant": "meshes, positions and angles range over unbounded sets; a unit test checks a few solids", "anchors": ["src/yapcad/geom3d.py: scalesolid, scalesurface"]}
{"id": "C171", "title": "Two scale factors may be given", "statement": "scalesurface(s, sx, sy) scales in x and y.", "quantifier": "all surfaces and transformations of these kinds", "why_tests_cant": "meshes, positions and angles range over unbounded sets; a unit test checks a few solids", "anchors": ["src/yapcad/geom3d.py: scalesurface"]}
{"id": "C172", "title": "issurface(fast=False) checks the face indices", "statement": "A surface accepted by issurface(s, fast=False) has only existing vertex indices in its faces.", "quantifier": "all surfaces whose face indices exist", "why_tests_cant": "meshes, positions and angles range over unbounded sets; a unit test checks a few solids", "anchors": ["src/yapcad/geom3d.py: issurface"]}
{"id": "C173", "title": "linePlaneIntersect accepts a planar basis", "statement": "As documented, the plane may be given as the [p0,n,forward,reverse] list of tri2p0n(basis=True).", "quantifier": "all lines and triangles", "why_tests_cant": "meshes, positions and angles range over unbounded sets; a unit test checks a few solids", "anchors": ["src/yapcad/geom3d.py: linePlaneIntersect"]}
{"id": "C174", "title": "inside=False intersects the whole plane", "statement": "linePlaneIntersect(l, triangle, inside=False) finds the intersection with the triangle's plane anywhere.", "quantifier": "all lines and triangles", "why_tests_cant": "meshes, positions and angles range over unbounded sets; a unit test checks a few solids", "anchors": ["src/yapcad/geom3d.py: linePlaneIntersect"]}
{"id": "C175", "title": "A face added has three different corners", "statement": "addTri2Surface of a triangle with positive area adds a face with three different indices.", "quantifier": "all sequences of triangles", "why_tests_cant": "meshes, positions and angles range over unbounded sets; a unit test checks a few solids", "anchors": ["src/yapcad/geom3d.py: addTri2Surface"]}
{"id": "C176", "title": "Normals of an incrementally built surface fit its faces", "statement": "After addTri2Surface of two triangles sharing an edge the normal stored at a corner is that of each face using it.", "quantifier": "all sequences of triangles", "why_tests_cant": "meshes, positions and angles range over unbounded sets; a unit test checks a few solids", "anchors": ["src/yapcad/geom3d.py: addTri2Surface"]}
{"id": "C177", "title": "A box is closed and has the requested size", "statement": "prism(l, w, h, center) with positive sizes is a solid whose vertices are exactly the corners of the box of that size about the centre, whose bounding box is that box, whose normals point outward and whose faces are consistently oriented outward with signed volume l*w*h. When every size exceeds twice the tolerance, issolidclosed says True and volumeof returns l*w*h.", "quantifier": "all positive sizes and all centres", "why_tests_cant": "sizes, positions and resolutions range over the reals; a unit test builds a few solids", "anchors": ["src/yapcad/geom3d_util.py: prism, rectangularPlane"]}
{"id": "C178", "title": "A cone, frustum or cylinder is closed and outward", "statement": "conic(r0, r1, h, center, angr) with radii and height at least the tolerance gives a solid with base, side and (unless r1 is below the tolerance) top; its vertices lie on the two rims or at their centres, base and top normals point down and up, the side faces point outward, all faces are consistently oriented and the signed volume is that of the n-gon frustum. When neighbouring corners are more than twice the tolerance apart issolidclosed says True and volumeof is that volume. Arguments outside the limits raise ValueError; without angr a resolution of at most 10 degrees is chosen.", "quantifier": "all radii, heights, centres and angular resolutions with eps <= 2*r0*h*sin(2*pi/n)", "why_tests_cant": "sizes, positions and resolutions range over the reals; a unit test builds a few solids", "anchors": ["src/yapcad/geom3d_util.py: conic, circleSurface, adaptive_angr_from_radius"]}
{"id": "C179", "title": "Radii and height above epsilon are enough for conic", "statement": "As documented, conic accepts every baser, height greater than epsilon and returns a closed solid.", "quantifier": "all radii, heights, centres and angular resolutions with eps <= 2*r0*h*sin(2*pi/n)", "why_tests_cant": "sizes, positions and resolutions range over the reals; a unit test builds a few solids", "anchors": ["src/yapcad/geom3d_util.py: conic"]}
{"id": "C180", "title": "Adaptive segment counts keep the requested accuracy", "statement": "adaptive_arc_segments returns a count between 16 and 360; given max_chord every chord of the regular polygon is at most that long, given chord_error the sagitta is at most that, unless the cap of 360 is hit; with neither every chord is at most 1. adaptive_angr_from_radius returns between 1 and 10 degrees.", "quantifier": "all radii and positive limits", "why_tests_cant": "sizes, positions and resolutions range over the reals; a unit test builds a few solids", "anchors": ["src/yapcad/geom3d_util.py: adaptive_arc_segments, adaptive_angr_from_radius"]}
{"id": "C181", "title": "Spheres and spheroids are closed meshes on the surface, whatever was built before", "statement": "sphere(d, center, depth) with d at least 16 tolerances returns, for every depth and every content earlier calls left in the module's vertex hash, a solid with 20*4^depth triangles, all vertices on the sphere, stored normals equal to the outer unit normals, and sides matched in opposite directions (closed and consistently oriented); with d at least 16*4^depth tolerances every triangle is outward and the signed volume is positive. The same for oblate_spheroid(d, f) with f < 1 and its ellipsoid. Looking a point up in the vertex table always gives the index of a vertex within the tolerance of it, and the same index again later.", "quantifier": "all diameters, centres, oblatenesses, depths and all histories of the vertex hash, including contents left by lists whose address was reused", "why_tests_cant": "sizes, places, subdivision depths and the history of the process-wide vertex hash range over unbounded sets", "anchors": ["src/yapcad/geom3d_util.py: sphere, sphereSurface, subdivide, addVertex, makeIcoPoints, sphere2cartesian, oblate_spheroid"]}
{"id": "C182", "title": "The vertex table never stores a point twice", "statement": "As documented, addVertex adds a vertex only if no stored vertex is within the tolerance of it.", "quantifier": "all diameters, centres, oblatenesses, depths and all histories of the vertex hash, including contents left by lists whose address was reused", "why_tests_cant": "sizes, places, subdivision depths and the history of the process-wide vertex hash range over unbounded sets", "anchors": ["src/yapcad/geom3d_util.py: addVertex"]}
{"id": "C183", "title": "A dodecahedron is closed and regular in volume", "statement": "dodecahedron(d, center) with d > 0 returns a solid of 12 surfaces and 36 triangles whose sides match in opposite directions and whose signed volume is (15+7*sqrt(5))/4*a^3 for the edge a = d*(3-sqrt(5))/2; when a exceeds twice the tolerance issolidclosed says True and volumeof is that number.", "quantifier": "all positive diameters and all centres", "why_tests_cant": "sizes, places, subdivision depths and the history of the process-wide vertex hash range over unbounded sets", "anchors": ["src/yapcad/geom3d_util.py: dodecahedron"]}
{"id": "C184", "title": "The dodecahedron fits the sphere it is asked for", "statement": "As documented, diameter is the diameter of the circumscribed sphere and center is the centre.", "quantifier": "all positive diameters and all centres", "why_tests_cant": "sizes, places, subdivision depths and the history of the process-wide vertex hash range over unbounded sets", "anchors": ["src/yapcad/geom3d_util.py: dodecahedron"]}
{"id": "C185", "title": "Extruding a surface closes it over its outline", "statement": "For every valid triangulated surface whose boundary and hole loops (stored in either direction) are exactly the sides no other face shares, and every distance above the tolerance whose walls are not degenerate, extrude(surf, d, dir) returns the surface turned over, a wall and the surface moved by d*dir; the triangles of the result are consistently oriented, the enclosed signed volume is the volume swept by the faces (area times distance for a flat surface moved along its unit normal), each wall vertex carries the unit normal of the wall there, and if vertices and copies are apart issolidclosed is True and volumeof returns that volume. Distances within the tolerance are rejected.", "quantifier": "all surfaces, all outlines with any number of holes, all distances and directions", "why_tests_cant": "the mesh has unbounded size and any number of holes; tests try a handful of plates", "anchors": ["src/yapcad/geom3d_util.py:extrude", "src/yapcad/geom3d.py:translatesurface", "src/yapcad/geom3d.py:reversesurface"]}
{"id": "C186", "title": "Every square can be extruded to a closed box", "statement": "For all sides and distances above the tolerance, extruding a square rectangularPlane gives a closed solid.", "quantifier": "all surfaces, all outlines with any number of holes, all distances and directions", "why_tests_cant": "the mesh has unbounded size and any number of holes; tests try a handful of plates", "anchors": ["src/yapcad/geom3d_util.py:extrude", "src/yapcad/geom3d.py:tri2p0n"]}
{"id": "C187", "title": "A loft surface joins two loops by a band open exactly along them", "statement": "For all loops of equal length at least three whose neighbouring points are apart and whose ribs are not degenerate, _loft_surface returns a valid surface on the points of both loops with two triangles per side, unit normals, and a rim consisting of the lower loop and the reversed upper loop (the other way round when inverted); a point given twice in a row makes no difference; loops of different or too small size are rejected.", "quantifier": "all loops of any length", "why_tests_cant": "loops have unbounded length", "anchors": ["src/yapcad/geom3d_util.py:_loft_surface"]}
{"id": "C188", "title": "A loft solid is closed", "statement": "makeLoftSolid returns a solid that encloses a volume.", "quantifier": "all loops of any length", "why_tests_cant": "loops have unbounded length", "anchors": ["src/yapcad/geom3d_util.py:makeLoftSolid"]}
{"id": "C189", "title": "Extra arguments of solid() land in their own slots", "statement": "For all surfaces, non-empty material, construction and metadata, solid(surfaces, material, construction, metadata) stores each in its own slot, wherever the metadata dictionary stands; every accepted call has at most three extra arguments, at most one dictionary, only lists and dictionaries, and keeps every non-empty list.", "quantifier": "all argument lists", "why_tests_cant": "argument lists are unbounded", "anchors": ["src/yapcad/geom3d.py:solid"]}
{"id": "C190", "title": "An empty material or boundary argument keeps its place", "statement": "solid(surfaces, [], construction) stores the construction record as construction, and surface(v, n, f, [], holes) stores the holes as holes.", "quantifier": "all argument lists", "why_tests_cant": "argument lists are unbounded", "anchors": ["src/yapcad/geom3d.py:solid", "src/yapcad/geom3d.py:surface"]}
{"id": "C191", "title": "Solids survive a round trip through the geometry JSON document", "statement": "Whatever is in the list handed to geometry_to_json (solids, surfaces, sketches, with or without metadata overrides, surfaces shared between solids, clashing ids): if saving succeeds and no id is empty, geometry_from_json returns exactly the solids, in order, each with the vertices, normals and triangles of the surfaces of its shell and of each of its voids in order (members of those lists that are not surfaces are passed over) and with its metadata and theirs. Saving solids, surfaces and sketches with string ids never fails: the search for an unused id ends, and every entry gets a non-empty id. A document with an empty id is rejected with ValueError.", "quantifier": "every list of entities, every metadata of theirs, every stream of distinct uuids", "why_tests_cant": "Clashes of ids depend on the whole history of shared surfaces and copies; tests save one or two solids.", "anchors": ["src/yapcad/io/geometry_json.py:geometry_to_json", "src/yapcad/io/geometry_json.py:geometry_from_json"]}
{"id": "C192", "title": "Sketches and stand-alone surfaces survive a round trip when no solid is in the list", "statement": "If the list has no solids, geometry_from_json returns every (non-empty) sketch, element by element: lines and polylines in the plane z=0 (a polyline as the lines between its points), arcs and circles that are not reversed, ellipses with a unit normal, Catmull-Rom splines and NURBS are equal to what was saved. If there are no sketches either, it returns the surfaces in order, with the same vertices, normals, triangles and metadata, if their entity ids are distinct.", "quantifier": "every list of sketches and surfaces, every element of the kinds named", "why_tests_cant": "Round trips of all parameter values of six kinds of elements.", "anchors": ["src/yapcad/io/geometry_json.py:geometry_to_json", "src/yapcad/io/geometry_json.py:geometry_from_json", "src/yapcad/geom.py:arc", "src/yapcad/geom.py:ellipse", "src/yapcad/geom.py:nurbs"]}
{"id": "C193", "title": "Saving leaves metadata alone except for ids and a missing layer", "statement": "geometry_to_json changes only the metadata of the solids and surfaces it saves; in those a key not named in an override keeps its value unless it is entityId or id, or it is a layer that is empty or 'default'; no key is added but layer, entityId, id, schema and tags. If no two saved things share a metadata dictionary, the id of every entry in the document is the entityId in its metadata.", "quantifier": "every list of entities, every metadata and override, every key", "why_tests_cant": "Every key and every nesting of solids, voids and overrides.", "anchors": ["src/yapcad/io/geometry_json.py:geometry_to_json", "src/yapcad/io/geometry_json.py:geometry_from_json", "src/yapcad/metadata.py:get_solid_metadata", "src/yapcad/metadata.py:get_surface_metadata"]}
{"id": "C194", "title": "Surface boundaries and holes survive a round trip", "statement": "A surface loaded from a geometry JSON document has the boundary and the holes of the surface that was saved.", "quantifier": "every list of sketches and surfaces, every element of the kinds named", "why_tests_cant": "Round trips of all parameter values of six kinds of elements.", "anchors": ["src/yapcad/io/geometry_json.py:geometry_to_json", "src/yapcad/io/geometry_json.py:geometry_from_json"]}
{"id": "C195", "title": "A solid's material and construction data survive a round trip", "statement": "A solid built with solid(surfaces, material, construction) can be saved, and comes back with its material and construction lists.", "quantifier": "every list of entities, every metadata of theirs, every stream of distinct uuids", "why_tests_cant": "Clashes of ids depend on the whole history of shared surfaces and copies; tests save one or two solids.", "anchors": ["src/yapcad/io/geometry_json.py:geometry_to_json", "src/yapcad/io/geometry_json.py:geometry_from_json", "src/yapcad/geom3d.py:solid"]}
{"id": "C196", "title": "Everything that was saved is loaded", "statement": "geometry_from_json returns every solid, surface and sketch that was handed to geometry_to_json.", "quantifier": "every list of entities, every metadata of theirs, every stream of distinct uuids", "why_tests_cant": "Clashes of ids depend on the whole history of shared surfaces and copies; tests save one or two solids.", "anchors": ["src/yapcad/io/geometry_json.py:geometry_to_json", "src/yapcad/io/geometry_json.py:geometry_from_json"]}
{"id": "C197", "title": "Sketch elements come back as they were", "statement": "Every geometry list that can be saved as a sketch comes back with the same elements.", "quantifier": "every list of sketches and surfaces, every element of the kinds named", "why_tests_cant": "Round trips of all parameter values of six kinds of elements.", "anchors": ["src/yapcad/io/geometry_json.py:geometry_to_json", "src/yapcad/io/geometry_json.py:geometry_from_json", "src/yapcad/geom.py:arc"]}
{"id": "C198", "title": "Saving is read-only", "statement": "geometry_to_json does not change what it saves, so saving again later reflects later changes, and entries name their metadata.", "quantifier": "every list of entities, every metadata and override, every key", "why_tests_cant": "Every key and every nesting of solids, voids and overrides.", "anchors": ["src/yapcad/io/geometry_json.py:geometry_to_json", "src/yapcad/io/geometry_json.py:geometry_from_json"]}
{"id": "C199", "title": "Design constraints pass exactly within tolerance", "statement": "Constraint.evaluate passes a FACING, PARALLEL_TO, PERPENDICULAR_TO, TANGENT_TO_CIRCLE, AT_RADIUS or RADIAL_FROM_CENTER constraint exactly when the angle (in degrees) or distance it names, computed geometrically, is within the stated tolerance (strictly within for RADIAL_FROM_CENTER), and reports that angle or distance as the error; a constraint whose parameters are missing does not pass.", "quantifier": "all constraints, datums, tolerances", "why_tests_cant": "real-valued inputs: a test can only sample angles, tolerances and placements", "anchors": ["src/yapcad/assembly/constraint.py: Constraint.evaluate"]}
{"id": "C200", "title": "A tolerance of zero can be met", "statement": "An exactly radial datum passes RADIAL_FROM_CENTER with a tolerance of zero degrees.", "quantifier": "all constraints, datums, tolerances", "why_tests_cant": "real-valued inputs: a test can only sample angles, tolerances and placements", "anchors": ["src/yapcad/assembly/constraint.py: Constraint.evaluate"]}
{"id": "C201", "title": "A zero axis is refused", "statement": "PARALLEL_TO and the like refuse a zero reference axis.", "quantifier": "all constraints, datums, tolerances", "why_tests_cant": "real-valued inputs: a test can only sample angles, tolerances and placements", "anchors": ["src/yapcad/assembly/constraint.py: Constraint.evaluate"]}
{"id": "C202", "title": "TANGENT_TO_CIRCLE means touching the circle", "statement": "A datum passing TANGENT_TO_CIRCLE touches the circle of the given radius.", "quantifier": "all constraints, datums, tolerances", "why_tests_cant": "real-valued inputs: a test can only sample angles, tolerances and placements", "anchors": ["src/yapcad/assembly/constraint.py: Constraint.evaluate"]}
{"id": "C203", "title": "Every constraint type can be satisfied", "statement": "A constraint of any documented type can pass.", "quantifier": "all constraints, datums, tolerances", "why_tests_cant": "real-valued inputs: a test can only sample angles, tolerances and placements", "anchors": ["src/yapcad/assembly/constraint.py: Constraint.evaluate"]}
{"id": "C204", "title": "Angle helpers", "statement": "angle_between_vectors is symmetric, lies between 0 and 180, is the angle in degrees between vectors of length at least 1e-10 and 0 when one is shorter; is_tangent_to_circle and is_radial_from_center agree with the verdicts of the corresponding constraints.", "quantifier": "all non-zero vectors", "why_tests_cant": "real-valued inputs: a test can only sample angles, tolerances and placements", "anchors": ["src/yapcad/assembly/constraint.py: angle_between_vectors, is_tangent_to_circle, is_radial_from_center"]}
{"id": "C205", "title": "Mate.evaluate judges the position against the limits", "statement": "evaluate reports satisfied exactly when the position lies within the position limits (or there are none, or no position is given); the error is the distance to the nearest allowed position; limit_violations lists exactly the broken limits, each once.", "quantifier": "all mates, limits, positions, velocities, efforts", "why_tests_cant": "real-valued inputs: a test can only sample angles, tolerances and placements", "anchors": ["src/yapcad/assembly/mate.py: Mate", "src/yapcad/assembly/mate.py: MateLimits"]}
{"id": "C206", "title": "satisfied means no limit is violated", "statement": "A mate reported as satisfied has no limit violations.", "quantifier": "all mates, limits, positions, velocities, efforts", "why_tests_cant": "real-valued inputs: a test can only sample angles, tolerances and placements", "anchors": ["src/yapcad/assembly/mate.py: Mate"]}
{"id": "C207", "title": "Mates survive serialization", "statement": "Mate.from_dict(mate.to_dict()) is an equal mate; only name, mate_type, parts and datums are required, the others get their documented defaults; a missing required key or an unknown mate type is refused.", "quantifier": "all mates and documents", "why_tests_cant": "every combination of optional sections must round-trip", "anchors": ["src/yapcad/assembly/mate.py: Mate"]}
{"id": "C208", "title": "degrees_of_freedom is between 0 and 6", "statement": "degrees_of_freedom returns a number from 0 to 6, as documented.", "quantifier": "all mates, limits, positions, velocities, efforts", "why_tests_cant": "real-valued inputs: a test can only sample angles, tolerances and placements", "anchors": ["src/yapcad/assembly/mate.py: Mate"]}
{"id": "C209", "title": "Coupled motion", "statement": "compute_coupled_motion works exactly for GEAR, RACK_PINION, CAM and SCREW mates (ValueError otherwise) and gives plus or minus (ratio * driver + offset); a screw with a pitch advances by it in one turn; two inverse gears restore the motion.", "quantifier": "all coupled mates and driver positions", "why_tests_cant": "real-valued inputs: a test can only sample angles, tolerances and placements", "anchors": ["src/yapcad/assembly/mate.py: Mate"]}
{"id": "C210", "title": "Reversal and the documented screw", "statement": "A 2 mm screw moves 2.0 after a driver position of pi (the documented example), and coupling_reverse negates the motion.", "quantifier": "all coupled mates and driver positions", "why_tests_cant": "real-valued inputs: a test can only sample angles, tolerances and placements", "anchors": ["src/yapcad/assembly/mate.py: Mate"]}
{"id": "C211", "title": "Coincidence is distance and alignment", "statement": "evaluate_coincident reports the distance from the second datum's origin to the nearest point of the first (point, line or plane), or from the point to the plane; it is satisfied exactly when this is within the linear tolerance and, for two planes, axes or circles, the directions are aligned (either way) within the angular one; moving both datums by one rigid motion changes neither.", "quantifier": "all valid datums, tolerances and rigid motions", "why_tests_cant": "real-valued inputs: a test can only sample angles, tolerances and placements", "anchors": ["src/yapcad/assembly/mate.py: evaluate_coincident"]}
{"id": "C212", "title": "Coincidence of planes is symmetric", "statement": "Whether two planes are coincident does not depend on which is given first.", "quantifier": "all valid datums, tolerances and rigid motions", "why_tests_cant": "real-valued inputs: a test can only sample angles, tolerances and placements", "anchors": ["src/yapcad/assembly/mate.py: evaluate_coincident"]}
{"id": "C213", "title": "Bolt circle alignment is sound", "statement": "A satisfied alignment means that centres and radii agree within the tolerance, the axes within one degree, and that every hole is within the tolerance of its partner; without an offset, circles of equal radius align exactly when they are coincident; datums that are not circles are refused.", "quantifier": "all circles, hole counts, tolerances", "why_tests_cant": "real-valued inputs: a test can only sample angles, tolerances and placements", "anchors": ["src/yapcad/assembly/mate.py: check_bolt_circle_alignment"]}
{"id": "C214", "title": "An expected angular offset can be given", "statement": "Patterns that differ by the expected angular offset align, for instance by one hole spacing.", "quantifier": "all circles, hole counts, tolerances", "why_tests_cant": "real-valued inputs: a test can only sample angles, tolerances and placements", "anchors": ["src/yapcad/assembly/mate.py: check_bolt_circle_alignment"]}
{"id": "C215", "title": "Assemblies stay consistent", "statement": "After any sequence of calls, failing ones included, part, load case and bolt pattern names and datum names within a part are unique; all datums are valid; mates, constraints, load cases and bolt patterns refer to parts and datums that exist, mates to datums of fitting types; a datum once found is never changed or lost.", "quantifier": "all histories of calls", "why_tests_cant": "arbitrary histories of successful and failing calls", "anchors": ["src/yapcad/assembly/assembly.py: Assembly"]}
{"id": "C216", "title": "What an assembly accepts", "statement": "add_part, add_mate, add_constraint, add_load_case and add_bolt_pattern accept exactly new names and existing, fitting references, and then have the stated effect and no other; a refused call raises AssemblyError (ValueError for a datum) and changes nothing (import and add_part with a Matrix aside).", "quantifier": "all states and calls", "why_tests_cant": "arbitrary histories of successful and failing calls", "anchors": ["src/yapcad/assembly/assembly.py: Assembly"]}
{"id": "C217", "title": "A refused add_part changes nothing", "statement": "An add_part call that raises leaves the assembly unchanged.", "quantifier": "all states and calls", "why_tests_cant": "arbitrary histories of successful and failing calls", "anchors": ["src/yapcad/assembly/assembly.py: Assembly"]}
{"id": "C218", "title": "Validation judges constraints in place", "statement": "With transforms given as lists or Matrix, datums are placed by the part's transform; validate is valid exactly when every constraint of severity error passes there, and lists the failing errors and warnings in order; the result recorded under a name is that of the last constraint so named; with rigid transforms it never raises.", "quantifier": "all histories of calls", "why_tests_cant": "arbitrary histories of successful and failing calls", "anchors": ["src/yapcad/assembly/assembly.py: Assembly"]}
{"id": "C219", "title": "Numpy transforms move parts", "statement": "A transform given as a numpy array, the documented form, places the part's datums.", "quantifier": "all histories of calls", "why_tests_cant": "arbitrary histories of successful and failing calls", "anchors": ["src/yapcad/assembly/assembly.py: Assembly", "src/yapcad/assembly/datum.py: Datum.transform", "src/yapcad/xform.py: Matrix.__init__"]}
{"id": "C220", "title": "validate_and_raise raises AssemblyError", "statement": "validate_and_raise raises AssemblyError when a constraint fails.", "quantifier": "all histories of calls", "why_tests_cant": "arbitrary histories of successful and failing calls", "anchors": ["src/yapcad/assembly/assembly.py: Assembly"]}
{"id": "C221", "title": "A name listed as failed has a failed result", "statement": "constraint_results[name] has not passed for every name in failed_constraints.", "quantifier": "all histories of calls", "why_tests_cant": "arbitrary histories of successful and failing calls", "anchors": ["src/yapcad/assembly/assembly.py: Assembly"]}
{"id": "C222", "title": "Degrees of freedom of parts", "statement": "When all mates are COINCIDENT or CONCENTRIC, get_degrees_of_freedom gives every part 6 less 3 and 2 for each such mate that names it second, never below 0; it returns only in this case.", "quantifier": "all histories of calls", "why_tests_cant": "arbitrary histories of successful and failing calls", "anchors": ["src/yapcad/assembly/assembly.py: Assembly"]}
{"id": "C223", "title": "Importing transforms", "statement": "An import is accepted exactly when every part it shares with the assembly has a transform of 16 numbers or 4 rows of 4; then exactly these parts get these transforms and nothing else changes.", "quantifier": "all assemblies and documents", "why_tests_cant": "arbitrary histories of successful and failing calls", "anchors": ["src/yapcad/assembly/assembly.py: Assembly", "src/yapcad/assembly/assembly.py: import_transforms_from_kinematic_chain"]}
{"id": "C224", "title": "Degrees of freedom of any assembly", "statement": "get_degrees_of_freedom works for every assembly.", "quantifier": "all histories of calls", "why_tests_cant": "arbitrary histories of successful and failing calls", "anchors": ["src/yapcad/assembly/assembly.py: Assembly"]}
{"id": "C225", "title": "A failed import changes nothing", "statement": "An import that raises changes nothing, and part names that do not match raise AssemblyError, as documented.", "quantifier": "all assemblies and documents", "why_tests_cant": "arbitrary histories of successful and failing calls", "anchors": ["src/yapcad/assembly/assembly.py: Assembly"]}
{"id": "C226", "title": "Solved face-to-face mates touch", "statement": "For a COINCIDENT or RIGID mate whose datums are registered, the transform MateConstraintSolver.solve_mate returns is a proper rigid motion (lengths, angles and handedness kept), carries the second datum's origin exactly onto the first datum's origin, and turns the second datum's direction to the opposite of the first's up to 2e-10.", "quantifier": "every registry, mate and pair of valid AXIS, PLANE or CIRCLE datums", "why_tests_cant": "It ranges over all datums (any origins and directions), so it is about every real number; tests try a few axis-aligned parts.", "anchors": ["src/yapcad/assembly/solver.py:MateConstraintSolver.solve_mate", "src/yapcad/assembly/face_mate.py:compute_flush_transform", "src/yapcad/assembly/face_mate.py:_rotation_between_vectors"]}
{"id": "C227", "title": "Solved concentric mates share their axis", "statement": "For a CONCENTRIC mate of datums without stray vectors the transform solve_mate returns is a proper rigid motion, carries the second origin onto the first and turns the second axis along the first up to 2e-10.", "quantifier": "every registry, mate and pair of valid AXIS, PLANE or CIRCLE datums", "why_tests_cant": "It ranges over all datums (any origins and directions), so it is about every real number; tests try a few axis-aligned parts.", "anchors": ["src/yapcad/assembly/solver.py:MateConstraintSolver.solve_mate", "src/yapcad/assembly/face_mate.py:compute_concentric_transform"]}
{"id": "C228", "title": "Solved REVOLUTE and PARALLEL mates align directions (cosine at least 0.9999)", "statement": "For a REVOLUTE (PARALLEL) mate the transform is a proper rigid motion that puts origin on origin (leaves the part's own origin in place); the turned direction makes an angle of cosine at least 0.9999 with the first one's, and points exactly along it unless the two were within that cosine of parallel to begin with without being exactly parallel.", "quantifier": "every registry, mate and pair of valid datums with a direction", "why_tests_cant": "It ranges over all datums (any origins and directions), so it is about every real number; tests try a few axis-aligned parts.", "anchors": ["src/yapcad/assembly/solver.py:MateConstraintSolver._rotation_between_vectors", "src/yapcad/assembly/solver.py:MateConstraintSolver._solve_concentric", "src/yapcad/assembly/solver.py:MateConstraintSolver._solve_parallel"]}
{"id": "C229", "title": "PARALLEL mates are aligned to the solver's angle tolerance", "statement": "The directions of a solved PARALLEL (or REVOLUTE) mate are within the solver's angle_tolerance (0.1 degree by default) of each other.", "quantifier": "every registry, mate and pair of valid datums with a direction", "why_tests_cant": "It ranges over all datums (any origins and directions), so it is about every real number; tests try a few axis-aligned parts.", "anchors": ["src/yapcad/assembly/solver.py:MateConstraintSolver._rotation_between_vectors"]}
{"id": "C230", "title": "Solved PERPENDICULAR mates are at a right angle", "statement": "For a PERPENDICULAR mate the transform is a proper rotation about the part's origin after which the two directions are exactly perpendicular.", "quantifier": "every registry, mate and pair of valid datums with a direction", "why_tests_cant": "It ranges over all datums (any origins and directions), so it is about every real number; tests try a few axis-aligned parts.", "anchors": ["src/yapcad/assembly/solver.py:MateConstraintSolver._solve_perpendicular"]}
{"id": "C231", "title": "DISTANCE mates translate to the first datum plus the offset", "statement": "For a DISTANCE mate the transform is the translation by the first datum's origin plus offset times the unit vector along its direction.", "quantifier": "every registry, mate, offset and pair of valid datums with a direction", "why_tests_cant": "It ranges over all datums (any origins and directions), so it is about every real number; tests try a few axis-aligned parts.", "anchors": ["src/yapcad/assembly/solver.py:MateConstraintSolver._solve_distance"]}
{"id": "C232", "title": "DISTANCE mates put the second datum at the offset", "statement": "After a solved DISTANCE mate the second datum's origin is at the mate's offset from the first datum (plane or axis).", "quantifier": "every registry, mate, offset and pair of valid datums with a direction", "why_tests_cant": "It ranges over all datums (any origins and directions), so it is about every real number; tests try a few axis-aligned parts.", "anchors": ["src/yapcad/assembly/solver.py:MateConstraintSolver._solve_distance"]}
{"id": "C233", "title": "ANGLE mates turn about the first datum's direction", "statement": "For an ANGLE mate the transform is a proper rotation about the part's origin that fixes the first datum's direction and turns every perpendicular direction around it, right-handed, by mate.angle taken in degrees.", "quantifier": "every registry, mate, angle and pair of valid datums with a direction", "why_tests_cant": "It ranges over all datums (any origins and directions), so it is about every real number; tests try a few axis-aligned parts.", "anchors": ["src/yapcad/assembly/solver.py:MateConstraintSolver._solve_angle", "src/yapcad/assembly/solver.py:MateConstraintSolver._rodrigues_rotation"]}
{"id": "C234", "title": "ANGLE mates put the two directions at the mate's angle", "statement": "After a solved ANGLE mate the angle between the two datums' directions is mate.angle (in radians as Mate documents, or even in degrees).", "quantifier": "every registry, mate, angle and pair of valid datums with a direction", "why_tests_cant": "It ranges over all datums (any origins and directions), so it is about every real number; tests try a few axis-aligned parts.", "anchors": ["src/yapcad/assembly/solver.py:MateConstraintSolver._solve_angle"]}
{"id": "C235", "title": "RIGID mates line up frames", "statement": "After a solved RIGID mate of two FRAME datums their z axes are parallel.", "quantifier": "every registry, mate and pair of valid AXIS, PLANE or CIRCLE datums", "why_tests_cant": "It ranges over all datums (any origins and directions), so it is about every real number; tests try a few axis-aligned parts.", "anchors": ["src/yapcad/assembly/face_mate.py:compute_flush_transform"]}
{"id": "C236", "title": "A mate axis keeps position and rigidity", "statement": "apply_mate_axis_rotation (and the mate_axis argument) keeps the position of the part's origin and turns a proper rigid motion into a proper rigid motion for every axis name, known or not; 'Z' and '-Z' send the local Z axis to Z and to -Z.", "quantifier": "every proper rigid motion and every string", "why_tests_cant": "It ranges over all datums (any origins and directions), so it is about every real number; tests try a few axis-aligned parts.", "anchors": ["src/yapcad/assembly/solver.py:apply_mate_axis_rotation", "src/yapcad/assembly/solver.py:MATE_AXIS_ROTATIONS"]}
{"id": "C237", "title": "Mate axes X and Y", "statement": "MATE_AXIS_ROTATIONS: 'X', 'Y', '-X' and '-Y' transform the local Z axis to the axis they name.", "quantifier": "every proper rigid motion and every string", "why_tests_cant": "It ranges over all datums (any origins and directions), so it is about every real number; tests try a few axis-aligned parts.", "anchors": ["src/yapcad/assembly/solver.py:MATE_AXIS_ROTATIONS"]}
{"id": "C238", "title": "Mates stay satisfied under a mate axis", "statement": "The transform solve_mate returns satisfies the mate whichever mate_axis is given.", "quantifier": "every proper rigid motion and every string", "why_tests_cant": "It ranges over all datums (any origins and directions), so it is about every real number; tests try a few axis-aligned parts.", "anchors": ["src/yapcad/assembly/solver.py:MateConstraintSolver.solve_mate"]}
{"id": "C239", "title": "The solver's cache is invisible to consistent callers", "statement": "A solver asked any sequence of solve_mate and invalidate_cache calls answers every solve as a new solver would, provided the registry does not change and no mate name is used (with the same axis) for another mate or parent position; after invalidate_cache() or invalidate_cache(name) the mate is solved afresh whatever happened before; failures are never kept; with use_cache=False every answer is fresh.", "quantifier": "every sequence of calls, every mate, parent and known axis name", "why_tests_cant": "It ranges over all call histories.", "anchors": ["src/yapcad/assembly/solver.py:MateConstraintSolver.solve_mate", "src/yapcad/assembly/solver.py:MateConstraintSolver.invalidate_cache"]}
{"id": "C240", "title": "solve_mate is for the parent position given", "statement": "solve_mate(mate, parent) returns the child position for that parent.", "quantifier": "every sequence of calls, every mate, parent and known axis name", "why_tests_cant": "It ranges over all call histories.", "anchors": ["src/yapcad/assembly/solver.py:MateConstraintSolver.solve_mate"]}
{"id": "C241", "title": "solve_mate is for the current datums", "statement": "solve_mate answers for the datums as registered at the time of the call.", "quantifier": "every sequence of calls, every mate, parent and known axis name", "why_tests_cant": "It ranges over all call histories.", "anchors": ["src/yapcad/assembly/solver.py:MateConstraintSolver.solve_mate"]}
{"id": "C242", "title": "solve_mate_chain composes along a chain", "statement": "For mates with distinct names and children where each mate's parent is the part placed by the previous one, solve_mate_chain gives every part the world transform of its parent (base for the first) times the mate's own transform; after a mate that cannot be solved exactly the parts placed before it are reported.", "quantifier": "every registry, base, chain length and set of mates", "why_tests_cant": "Chains of every length.", "anchors": ["src/yapcad/assembly/solver.py:solve_mate_chain"]}
{"id": "C243", "title": "solve_mate_chain follows part_a", "statement": "solve_mate_chain places every part relative to its mate's parent for any list in parent-before-child order.", "quantifier": "every registry, base, chain length and set of mates", "why_tests_cant": "Chains of every length.", "anchors": ["src/yapcad/assembly/solver.py:solve_mate_chain"]}
{"id": "C244", "title": "solve_all answers each mate", "statement": "For mates with distinct names a new solver's solve_all maps exactly the mates' names to results, each the result of solving that mate with parent_transforms.get(mate.part_a).", "quantifier": "every registry, list of mates and dictionary of parents", "why_tests_cant": "Lists of every length.", "anchors": ["src/yapcad/assembly/solver.py:MateConstraintSolver.solve_all"]}
{"id": "C245", "title": "validate_transform accepts motions and little else", "statement": "validate_transform accepts every proper rigid motion, hence every transform the solver returns for rigid parents; a matrix it accepts keeps scalar products of directions up to 3e-6 of the product of their lengths, and triple products (so handedness) up to the determinant tolerance.", "quantifier": "every 4x4 matrix and positive tolerance; every solved mate", "why_tests_cant": "It ranges over all datums (any origins and directions), so it is about every real number; tests try a few axis-aligned parts.", "anchors": ["src/yapcad/assembly/solver.py:MateConstraintSolver.validate_transform"]}
{"id": "C246", "title": "What the solver can solve", "statement": "A new solver's solve_mate succeeds exactly when both datums are registered and the mate type is one of COINCIDENT, RIGID, CONCENTRIC, PARALLEL, PERPENDICULAR, DISTANCE, ANGLE, REVOLUTE; it never raises.", "quantifier": "every registry, mate, parent and axis", "why_tests_cant": "All mates and registries.", "anchors": ["src/yapcad/assembly/solver.py:MateConstraintSolver._solve_constraint"]}
{"id": "C247", "title": "compute_flush_transform meets its contract", "statement": "compute_flush_transform returns a proper rigid motion taking the child's origin to the parent's origin plus offset along the parent's direction, the child's direction opposite (flip_normal) or along the parent's up to 2e-10, and differing from the unrotated result by a right-handed turn of rotation_deg degrees about the parent's direction.", "quantifier": "every pair of valid AXIS, PLANE or CIRCLE datums, offset, rotation and flip", "why_tests_cant": "It ranges over all datums (any origins and directions), so it is about every real number; tests try a few axis-aligned parts.", "anchors": ["src/yapcad/assembly/face_mate.py:compute_flush_transform", "src/yapcad/assembly/face_mate.py:_apply_rotation_about_axis"]}
{"id": "C248", "title": "compute_concentric_transform and compute_parallel_transform", "statement": "compute_concentric_transform returns a proper rigid motion taking the child's origin to the parent's origin plus offset along the axis and its axis along the parent's; compute_parallel_transform one that aligns the normals and moves the child's origin from where it was by offset along the parent's normal.", "quantifier": "every pair of valid datums of the right kinds and every offset", "why_tests_cant": "It ranges over all datums (any origins and directions), so it is about every real number; tests try a few axis-aligned parts.", "anchors": ["src/yapcad/assembly/face_mate.py:compute_concentric_transform", "src/yapcad/assembly/face_mate.py:compute_parallel_transform"]}
{"id": "C249", "title": "FaceToFaceMate computes transforms", "statement": "FaceToFaceMate.compute_transform returns the transform of the mate once its datums are registered.", "quantifier": "every pair of valid AXIS, PLANE or CIRCLE datums, offset, rotation and flip", "why_tests_cant": "It ranges over all datums (any origins and directions), so it is about every real number; tests try a few axis-aligned parts.", "anchors": ["src/yapcad/assembly/face_mate.py:FaceToFaceMate.compute_transform", "src/yapcad/assembly/face_mate.py:FaceToFaceMate.validate"]}
{"id": "C250", "title": "evaluate_path3d_at_t follows the path", "statement": "On a gapless path of n lines and arcs evaluate_path3d_at_t((i+u)/n) is the point at the fraction u of the i-th segment: a weighted mean for a line, the start point turned about the arc's normal by u times its angle (less than a full turn) for an arc; the path starts at its first and ends at its last point, and points of an arc stay on its circle and in its plane.", "quantifier": "every well formed path3d of lines and arcs and every parameter", "why_tests_cant": "It ranges over all paths (any number of lines and arcs, any real coordinates) and all parameters.", "anchors": ["src/yapcad/manufacturing/path_utils.py:evaluate_path3d_at_t", "src/yapcad/manufacturing/path_utils.py:_evaluate_line_segment", "src/yapcad/manufacturing/path_utils.py:_evaluate_arc_segment"]}
{"id": "C251", "title": "Tangents are the direction of motion", "statement": "Inside a segment the tangent evaluate_path3d_at_t returns is a unit vector, and the evaluated point moves with velocity (number of segments times length of the segment) times that vector.", "quantifier": "every well formed path3d of lines and arcs and every parameter", "why_tests_cant": "It ranges over all paths (any number of lines and arcs, any real coordinates) and all parameters.", "anchors": ["src/yapcad/manufacturing/path_utils.py:evaluate_path3d_at_t", "src/yapcad/manufacturing/path_utils.py:compute_cut_plane"]}
{"id": "C252", "title": "Sub-paths are the part of the path between two parameters", "statement": "For 0 <= a < b <= 1 extract_sub_path returns a non-empty, gapless, well formed path through exactly the points the original passes between the two parameters, with the same ends; for b <= a it raises ValueError.", "quantifier": "every well formed path3d of lines and arcs and every parameter", "why_tests_cant": "It ranges over all paths (any number of lines and arcs, any real coordinates) and all parameters.", "anchors": ["src/yapcad/manufacturing/path_utils.py:extract_sub_path"]}
{"id": "C253", "title": "Lengths add up", "statement": "path_length is the sum of the lengths of the segments (angle times radius for arcs); the lengths of two consecutive sub-paths add to that of their union, and the sub-path from 0 to 1 has the length of the path.", "quantifier": "every well formed path3d of lines and arcs and every parameter", "why_tests_cant": "It ranges over all paths (any number of lines and arcs, any real coordinates) and all parameters.", "anchors": ["src/yapcad/manufacturing/path_utils.py:path_length", "src/yapcad/manufacturing/path_utils.py:extract_sub_path"]}
{"id": "C254", "title": "parameter_to_length answers on [0, 1]", "statement": "parameter_to_length(path, t) returns the length up to t for every t in [0, 1].", "quantifier": "every well formed path3d of lines and arcs and every parameter", "why_tests_cant": "It ranges over all paths (any number of lines and arcs, any real coordinates) and all parameters.", "anchors": ["src/yapcad/manufacturing/path_utils.py:parameter_to_length"]}
{"id": "C255", "title": "length_to_parameter inverts parameter_to_length", "statement": "parameter_to_length(path, length_to_parameter(path, s)) = s for every length on the path.", "quantifier": "every well formed path3d of lines and arcs and every parameter", "why_tests_cant": "It ranges over all paths (any number of lines and arcs, any real coordinates) and all parameters.", "anchors": ["src/yapcad/manufacturing/path_utils.py:length_to_parameter", "src/yapcad/manufacturing/path_utils.py:parameter_to_length"]}
{"id": "C256", "title": "The conversions are inverse on even paths", "statement": "On a path whose segments all have the same length length_to_parameter and parameter_to_length are inverse to each other (away from 0).", "quantifier": "every well formed path3d with equal segments and every parameter or length on it", "why_tests_cant": "It ranges over all paths (any number of lines and arcs, any real coordinates) and all parameters.", "anchors": ["src/yapcad/manufacturing/path_utils.py:length_to_parameter", "src/yapcad/manufacturing/path_utils.py:parameter_to_length"]}
{"id": "C257", "title": "Parameters outside [0, 1] are refused", "statement": "evaluate_path3d_at_t and extract_sub_path raise ValueError for parameters outside [0, 1], as their docstrings say.", "quantifier": "every well formed path3d of lines and arcs and every parameter", "why_tests_cant": "It ranges over all paths (any number of lines and arcs, any real coordinates) and all parameters.", "anchors": ["src/yapcad/manufacturing/path_utils.py:evaluate_path3d_at_t", "src/yapcad/manufacturing/path_utils.py:extract_sub_path"]}
{"id": "C258", "title": "Segments tile the element", "statement": "segment_swept_element returns segments whose parameter ranges run from 0 to 1 in order without gap or overlap, each mating with its neighbours in the list and nothing else, with distinct ids and the element as parent, even when some splits fail; when no split fails n cuts give n + 1 segments.", "quantifier": "every swept element, list of cut points and every behaviour of splitting, sweeping and union", "why_tests_cant": "It ranges over all elements, cut lists of any length and every behaviour (including failures) of the solid modelling kernel.", "anchors": ["src/yapcad/manufacturing/segmentation.py:segment_swept_element"]}
{"id": "C259", "title": "Tabs go where the cut points say", "statement": "When nothing fails a segment has a connector tab exactly if the cut above it says union_connector_with 'a' or the cut below it 'b' (cuts taken in parameter order).", "quantifier": "every swept element, list of cut points and every behaviour of splitting, sweeping and union", "why_tests_cant": "It ranges over all elements, cut lists of any length and every behaviour (including failures) of the solid modelling kernel.", "anchors": ["src/yapcad/manufacturing/segmentation.py:segment_swept_element", "src/yapcad/manufacturing/data.py:CutPoint"]}
{"id": "C260", "title": "The assembly graph lists all mates", "statement": "assembly_graph maps every segment id to the ids of the segments it mates with.", "quantifier": "every swept element, list of cut points and every behaviour of splitting, sweeping and union", "why_tests_cant": "It ranges over all elements, cut lists of any length and every behaviour (including failures) of the solid modelling kernel.", "anchors": ["src/yapcad/manufacturing/segmentation.py:segment_swept_element", "src/yapcad/manufacturing/data.py:SegmentationResult"]}
{"id": "C261", "title": "connector_type is as documented", "statement": "connector_type is 'female' only for a segment that receives another segment's tab.", "quantifier": "every swept element, list of cut points and every behaviour of splitting, sweeping and union", "why_tests_cant": "It ranges over all elements, cut lists of any length and every behaviour (including failures) of the solid modelling kernel.", "anchors": ["src/yapcad/manufacturing/segmentation.py:segment_swept_element", "src/yapcad/manufacturing/data.py:Segment"]}
{"id": "C262", "title": "A cut point's connector_length is used", "statement": "CutPoint.connector_length overrides the computed connector length.", "quantifier": "every swept element, list of cut points and every behaviour of splitting, sweeping and union", "why_tests_cant": "It ranges over all elements, cut lists of any length and every behaviour (including failures) of the solid modelling kernel.", "anchors": ["src/yapcad/manufacturing/segmentation.py:segment_swept_element", "src/yapcad/manufacturing/connectors.py:compute_connector_spec", "src/yapcad/manufacturing/data.py:CutPoint"]}
{"id": "C263", "title": "Connector ids are unique", "statement": "The connectors of one element have unique ids.", "quantifier": "every swept element, list of cut points and every behaviour of splitting, sweeping and union", "why_tests_cant": "It ranges over all elements, cut lists of any length and every behaviour (including failures) of the solid modelling kernel.", "anchors": ["src/yapcad/manufacturing/connectors.py:compute_connector_spec"]}
{"id": "C264", "title": "Segmentation keeps the material", "statement": "When splitting is exact and no connectors are built, a point is in the element's solid exactly if it is in one of the segments.", "quantifier": "every swept element (as a set of points), list of cut points and point", "why_tests_cant": "It ranges over all elements, cut lists of any length and every behaviour (including failures) of the solid modelling kernel.", "anchors": ["src/yapcad/manufacturing/segmentation.py:segment_swept_element", "src/yapcad/manufacturing/segmentation.py:split_solid_at_plane"]}
{"id": "C265", "title": "compute_optimal_cuts", "statement": "compute_optimal_cuts returns no cuts for a path no longer than the maximum, otherwise valid cut points i/n (i = 1..n-1) with (n-1) max <= length < n max; on a path whose segments all have the same length every piece between cuts is shorter than the maximum.", "quantifier": "every well formed path and positive maximum", "why_tests_cant": "All paths and lengths.", "anchors": ["src/yapcad/manufacturing/segmentation.py:compute_optimal_cuts"]}
{"id": "C266", "title": "Optimal cuts keep segments under the maximum", "statement": "The pieces between the cuts of compute_optimal_cuts are no longer than max_segment_length.", "quantifier": "every well formed path and positive maximum", "why_tests_cant": "All paths and lengths.", "anchors": ["src/yapcad/manufacturing/segmentation.py:compute_optimal_cuts"]}
{"id": "C267", "title": "Connector profiles", "statement": "compute_connector_profile_dimensions returns the outer size less twice wall and clearance on both sides, and raises ValueError exactly when one of these is not positive.", "quantifier": "every size, wall >= 0 and clearance >= 0", "why_tests_cant": "All real sizes.", "anchors": ["src/yapcad/manufacturing/connectors.py:compute_connector_profile_dimensions", "src/yapcad/manufacturing/connectors.py:offset_rectangular_profile"]}
{"id": "C268", "title": "Interior connectors are centred on the cut", "statement": "On a path whose segments all have the same length an interior connector runs along the path through the cut; it has the connector length and extends equally to both sides when it fits, and stops at the path's ends when it does not.", "quantifier": "every well formed even path, cut parameter and connector length", "why_tests_cant": "All paths and parameters.", "anchors": ["src/yapcad/manufacturing/connectors.py:create_interior_connector"]}
{"id": "C269", "title": "Interior connectors span the cut on every path", "statement": "An interior connector extends half its length to each side of the cut.", "quantifier": "every well formed even path, cut parameter and connector length", "why_tests_cant": "All paths and parameters.", "anchors": ["src/yapcad/manufacturing/connectors.py:create_interior_connector"]}
{"id": "C270", "title": "Terminal connectors continue the path", "statement": "A terminal connector is swept along a straight line that starts at the chosen end of the path and goes the given length outwards along the unit tangent there.", "quantifier": "every well formed path, end and length", "why_tests_cant": "All paths.", "anchors": ["src/yapcad/manufacturing/connectors.py:create_terminal_connector"]}
{"id": "C271", "title": "Ring spines and attachment points", "statement": "create_ring_spine returns a closed gapless polygon of num_segments sides of equal length 2 r sin(pi/n) with its corners on the circle of the given centre, radius and tilt; compute_arc_attachment_point returns a point on that circle with the unit direction to the centre (point plus radius times direction is the centre); at 360 i/n degrees it is corner i.", "quantifier": "every radius >= 0, centre, tilt, axis, angle and number of sides", "why_tests_cant": "All reals.", "anchors": ["src/yapcad/manufacturing/rings.py:create_ring_spine", "src/yapcad/manufacturing/rings.py:compute_arc_attachment_point"]}
{"id": "C272", "title": "Closed rings are cut without loss", "statement": "The pieces segment_closed_ring returns together make up the ring.", "quantifier": "every swept element (as a set of points), list of cut points and point", "why_tests_cant": "It ranges over all elements, cut lists of any length and every behaviour (including failures) of the solid modelling kernel.", "anchors": ["src/yapcad/manufacturing/segmentation.py:segment_closed_ring", "src/yapcad/manufacturing/segmentation.py:extract_segment_between_planes"]}
{"id": "C273", "title": "Ring cuts that avoid holes", "statement": "compute_ring_cuts_avoiding_holes returns one cut less than segments (the number given, or the least number of pieces no longer than the maximum), strictly increasing inside (0, 1); either every cut keeps min_distance_from_hole from every hole, measured around the ring, or the cuts are the evenly spaced ones; evenly spaced cuts that keep the distance are the ones returned.", "quantifier": "every circumference, maximum, list of hole angles, distance and target", "why_tests_cant": "All lists of holes.", "anchors": ["src/yapcad/manufacturing/rings.py:compute_ring_cuts_avoiding_holes"]}
{"id": "C274", "title": "Ring cuts always avoid the holes", "statement": "Every cut compute_ring_cuts_avoiding_holes returns keeps the distance from the holes.", "quantifier": "every circumference, maximum, list of hole angles, distance and target", "why_tests_cant": "All lists of holes.", "anchors": ["src/yapcad/manufacturing/rings.py:compute_ring_cuts_avoiding_holes"]}
{"id": "C275", "title": "Ring segments keep to the maximum length", "statement": "The pieces between the cuts are no longer than max_segment_length.", "quantifier": "every circumference, maximum, list of hole angles, distance and target", "why_tests_cant": "All lists of holes.", "anchors": ["src/yapcad/manufacturing/rings.py:compute_ring_cuts_avoiding_holes"]}
{"id": "C276", "title": "Line and arc intersections", "statement": "A point lineArcIntersectXY reports lies on the line and exactly on the circle, unless the two are nearly tangent ((r^2 - h^2) 2 L < epsilon for line distance h, line length L), when the one reported point is the line's closest point. Otherwise every common point of line and circle (inside=False), or of segment and arc (inside=True), other than the line's end point is reported, and with inside=True only points of the arc. The answer is False exactly when the line is more than epsilon outside the circle, otherwise one or two points (or ValueError in the near miss). params=True gives parameters whose samples are the points.", "quantifier": "every line at least epsilon long and arc or circle in one horizontal plane, arcs given by angles in [0,360]", "why_tests_cant": "It ranges over all coordinates, radii and angles.", "anchors": ["src/yapcad/geom.py:lineArcIntersectXY", "src/yapcad/geom.py:_lineArcIntersectXY"]}
{"id": "C277", "title": "inside=True keeps to the segment", "statement": "With inside=True lineArcIntersectXY reports common points of the segment and the arc, and all of them.", "quantifier": "every line at least epsilon long and arc or circle in one horizontal plane, arcs given by angles in [0,360]", "why_tests_cant": "It ranges over all coordinates, radii and angles.", "anchors": ["src/yapcad/geom.py:lineArcIntersectXY", "src/yapcad/geom.py:_lineArcIntersectXY"]}
{"id": "C278", "title": "Intersections are exact to epsilon", "statement": "A line within epsilon of tangency is answered as tangent, and otherwise the answer is the exact intersections.", "quantifier": "every line at least epsilon long and arc or circle in one horizontal plane, arcs given by angles in [0,360]", "why_tests_cant": "It ranges over all coordinates, radii and angles.", "anchors": ["src/yapcad/geom.py:lineArcIntersectXY", "src/yapcad/geom.py:_lineArcIntersectXY"]}
{"id": "C279", "title": "Parameters and segments of arcs", "statement": "unsamplearc of a point of the arc's circle gives a parameter that samplearc maps back to the point, and unsamplearc(samplearc(u)) = u on plain arcs below the end at 360 degrees; points off the circle by more than epsilon give False. segmentarc(u1,u2) runs from samplearc(u1) to samplearc(u2) with samples at proportional parameters. arccenter is the middle of the arc, the centre of a circle.", "quantifier": "every arc or circle of positive radius and every parameter or point", "why_tests_cant": "It ranges over all coordinates, radii and angles.", "anchors": ["src/yapcad/geom.py:samplearc", "src/yapcad/geom.py:unsamplearc", "src/yapcad/geom.py:segmentarc", "src/yapcad/geom.py:arccenter"]}
{"id": "C280", "title": "Arcs that end at 360 degrees, whole circles", "statement": "unsamplearc of the end point is 1, and segmentarc(0,1) of a circle is the circle.", "quantifier": "every arc or circle of positive radius and every parameter or point", "why_tests_cant": "It ranges over all coordinates, radii and angles.", "anchors": ["src/yapcad/geom.py:samplearc", "src/yapcad/geom.py:unsamplearc", "src/yapcad/geom.py:segmentarc", "src/yapcad/geom.py:arccenter"]}
{"id": "C281", "title": "Arc and arc intersections", "statement": "Points arcArcIntersectXY reports for two circles lie on both, or the one point reported is within the tangency tolerance of both; every common point far enough from the line of centres and not exactly one unit below it is reported; the answer is False exactly when one circle lies outside or inside the other, one or two points otherwise. inside=True keeps exactly the points on both arcs. params=True gives parameters whose samples are the points, those on the first arc in [0,1] (on the second too if it does not pass 360).", "quantifier": "every two arcs or circles in one horizontal plane with centres at least epsilon apart", "why_tests_cant": "It ranges over all coordinates, radii and angles.", "anchors": ["src/yapcad/geom.py:arcArcIntersectXY", "src/yapcad/geom.py:_arcArcIntersectXY"]}
{"id": "C282", "title": "All intersections of arcs and their parameters", "statement": "arcArcIntersectXY reports every common point, and with params=True points on both arcs get parameters in [0,1] on both.", "quantifier": "every two arcs or circles in one horizontal plane with centres at least epsilon apart", "why_tests_cant": "It ranges over all coordinates, radii and angles.", "anchors": ["src/yapcad/geom.py:arcArcIntersectXY", "src/yapcad/geom.py:_arcArcIntersectXY"]}
{"id": "C283", "title": "Tangent lines of circles", "statement": "circleCircleTangentsXY gives two different lines from a contact point on the first circle to one on the second that touch both circles without crossing them; pointCircleTangentsXY gives two that start epsilon from the point and touch the circle.", "quantifier": "every two circles in one horizontal plane whose centres are further apart than the radii differ", "why_tests_cant": "It ranges over all coordinates, radii and angles.", "anchors": ["src/yapcad/geom.py:circleCircleTangentsXY", "src/yapcad/geom.py:pointCircleTangentsXY"]}
{"id": "C284", "title": "No tangents gives False", "statement": "circleCircleTangentsXY returns False when the centres are too close, as documented.", "quantifier": "every two circles in one horizontal plane whose centres are further apart than the radii differ", "why_tests_cant": "It ranges over all coordinates, radii and angles.", "anchors": ["src/yapcad/geom.py:circleCircleTangentsXY"]}
{"id": "C285", "title": "Inside test of circles and arcs", "statement": "isinsidearcXY is true for a circle exactly for points no further from the centre than the radius, for an arc exactly for the points of its sector.", "quantifier": "every circle or arc and point (not the centre for an arc)", "why_tests_cant": "It ranges over all coordinates, radii and angles.", "anchors": ["src/yapcad/geom.py:isinsidearcXY"]}
{"id": "C286", "title": "Inside an open arc means on it", "statement": "As documented isinsidearcXY is true for an arc that is not a circle only for points within epsilon of the arc.", "quantifier": "every circle or arc and point (not the centre for an arc)", "why_tests_cant": "It ranges over all coordinates, radii and angles.", "anchors": ["src/yapcad/geom.py:isinsidearcXY"]}
{"id": "C287", "title": "Sampling a geometry list", "statement": "The length of a geometry list is the sum of its elements' lengths. sample(list,u) is the point of the element in which the fraction u of the total length falls, at the remaining distance; u=0 and u=1 are the start of the first and the end of the last element. A list is continuous exactly if every element ends within epsilon of the start of the next, and a continuous list is closed exactly if it also ends within epsilon of where it starts; the empty list is closed.", "quantifier": "every list of lines, arcs and polylines of positive length and every parameter", "why_tests_cant": "It ranges over all coordinates and lists of any length.", "anchors": ["src/yapcad/geom.py:samplegeomlist", "src/yapcad/geom.py:iscontinuousgeomlist", "src/yapcad/geom.py:isclosedgeomlist", "src/yapcad/geom.py:length"]}
{"id": "C288", "title": "Points in a sampled list", "statement": "Points (length 0) in a geometry list do not disturb sampling.", "quantifier": "every list of lines, arcs and polylines of positive length and every parameter", "why_tests_cant": "It ranges over all coordinates and lists of any length.", "anchors": ["src/yapcad/geom.py:samplegeomlist"]}
{"id": "C289", "title": "Slicing a geometry list", "statement": "segmentgeomlist(list,u1,u2) has length (u2-u1) times the list's and its parameter v is the list's parameter u1+v(u2-u1), unless u1 or u2 falls exactly on a joint; parameters out of order or outside [0,1] raise ValueError.", "quantifier": "every list of lines and (less than full) arcs at least epsilon long, all parameters", "why_tests_cant": "It ranges over all coordinates and lists of any length.", "anchors": ["src/yapcad/geom.py:segmentgeomlist"]}
{"id": "C290", "title": "Slices that meet a joint", "statement": "The same holds when the slice starts or ends exactly at a joint.", "quantifier": "every list of lines and (less than full) arcs at least epsilon long, all parameters", "why_tests_cant": "It ranges over all coordinates and lists of any length.", "anchors": ["src/yapcad/geom.py:segmentgeomlist"]}
{"id": "C291", "title": "Slicing a polyline", "statement": "segment(polyline,u1,u2) with u1 < u2 (u2 < 1 for a closed polygon) has the proportional length, its parameter v is the polyline's parameter u1+v(u2-u1), and it ends at sample(polyline,u2), unless u1 or u2 falls exactly on a corner.", "quantifier": "every polyline or polygon of points whose edges are at least epsilon long, and every pair of parameters", "why_tests_cant": "It ranges over all coordinates and lists of any length.", "anchors": ["src/yapcad/geom.py:segmentpoly"]}
{"id": "C292", "title": "Slices over the seam, whole polygons and reversed slices", "statement": "segment(polygon,0,1) is the polygon, a slice of a polygon with u2 < u1 goes over the seam, and an open polyline can be sliced backwards.", "quantifier": "every polyline or polygon of points with no zero-length edge, and every parameter, point or line", "why_tests_cant": "It ranges over all coordinates and lists of any length.", "anchors": ["src/yapcad/geom.py:segmentpoly"]}
{"id": "C293", "title": "The parameter of a point of a polyline", "statement": "Every point on an edge gets a parameter, and a reported parameter samples back to a point whose distance from the asked one, times the edge's length, is at most 2 epsilon.", "quantifier": "every polyline or polygon of points with no zero-length edge, and every parameter, point or line", "why_tests_cant": "It ranges over all coordinates and lists of any length.", "anchors": ["src/yapcad/geom.py:unsamplepoly", "src/yapcad/geom.py:samplepoly"]}
{"id": "C294", "title": "Points on an open polyline", "statement": "isinsideXY of an open polyline says whether the point lies on it.", "quantifier": "every polyline or polygon of points with no zero-length edge, and every parameter, point or line", "why_tests_cant": "It ranges over all coordinates and lists of any length.", "anchors": ["src/yapcad/geom.py:isinsidepolyXY", "src/yapcad/geom.py:unsamplepoly"]}
{"id": "C295", "title": "Intersections of a line and a polyline", "statement": "For a polyline of at least three edges: with inside=True every reported point lies on the segment and on the polyline, and every common point on an edge not nearly parallel to the line is reported; with params=True the reported parameters come in pairs that sample to the same point on both, and every point where the line meets an edge is among them.", "quantifier": "every polyline or polygon of points with no zero-length edge, and every parameter, point or line in one horizontal plane", "why_tests_cant": "It ranges over all coordinates and lists of any length.", "anchors": ["src/yapcad/geom.py:intersectSimplePolyXY", "src/yapcad/geom.py:lineLineIntersectXY"]}
{"id": "C296", "title": "Short polylines and pairs of polylines", "statement": "A polyline of two edges intersects like any other, and the parameters of the intersections of two polylines come as two lists, one per polyline.", "quantifier": "every polyline or polygon of points with no zero-length edge, and every parameter, point or line in one horizontal plane", "why_tests_cant": "It ranges over all coordinates and lists of any length.", "anchors": ["src/yapcad/geom.py:intersectSimplePolyXY", "src/yapcad/geom.py:intersectXY"], "note": "REFUTED: A polyline of three points is never reported to intersect anything (len(lines) > 2); intersectXY of two polylines with params=True returns one list twice, with the parameters of both taking turns."}
{"id": "C297", "title": "Analytic surfaces: constructors and points", "statement": "plane_surface, sphere_surface, cylinder_surface, cone_surface and torus_surface normalize the direction and raise ValueError exactly for a direction shorter than epsilon, a radius that is not positive, a half angle outside (0, pi/2), or a torus whose minor radius is not below the major one. Every evaluated point lies on the plane, sphere, cylinder, cone (v >= 0) or torus, and every point of it is the surface at some (u, v).", "quantifier": "every origin, direction, radius and angle, and all parameters u, v", "why_tests_cant": "It ranges over all real coordinates, radii, angles and parameters.", "anchors": ["src/yapcad/analytic_surfaces.py:plane_surface", "src/yapcad/analytic_surfaces.py:sphere_surface", "src/yapcad/analytic_surfaces.py:cylinder_surface", "src/yapcad/analytic_surfaces.py:cone_surface", "src/yapcad/analytic_surfaces.py:torus_surface", "src/yapcad/analytic_surfaces.py:evaluate_surface"]}
{"id": "C298", "title": "Analytic surfaces: normals", "statement": "surface_normal is a unit vector perpendicular to both partial derivatives of the surface. On planes, cylinders, tori, and spheres away from the poles it has the direction of d/du x d/dv; on spheres and cylinders it points away from the centre or axis.", "quantifier": "every origin, direction, radius and angle, and all parameters u, v", "why_tests_cant": "It ranges over all real coordinates, radii, angles and parameters.", "anchors": ["src/yapcad/analytic_surfaces.py:surface_normal", "src/yapcad/analytic_surfaces.py:plane_surface_normal", "src/yapcad/analytic_surfaces.py:sphere_surface_normal", "src/yapcad/analytic_surfaces.py:cylinder_surface_normal", "src/yapcad/analytic_surfaces.py:torus_surface_normal"]}
{"id": "C299", "title": "The normal of a cone", "statement": "The normal of a cone points outward, like that of the other surfaces, and agrees with the orientation of the tessellation.", "quantifier": "every origin, direction, radius and angle, and all parameters u, v", "why_tests_cant": "It ranges over all real coordinates, radii, angles and parameters.", "anchors": ["src/yapcad/analytic_surfaces.py:cone_surface_normal"]}
{"id": "C300", "title": "Tessellated surfaces", "statement": "tessellate_surface(s, nu, nv) gives (nu+1)(nv+1) vertices and normals, vertex j(nu+1)+i being the surface at the i-th and j-th of equally spaced parameters, and 2 nu nv triangles over them; no directed edge is used twice, and the edges used in one direction only are exactly the consecutive ones of the boundary list, in its direction. A division count of 0 raises ZeroDivisionError.", "quantifier": "every parametric surface and all division counts", "why_tests_cant": "It ranges over grids of every size.", "anchors": ["src/yapcad/analytic_surfaces.py:tessellate_surface"]}
{"id": "C301", "title": "Spline surfaces", "statement": "bspline_surface rejects ragged or too small control grids and wrong knot counts. With ordered knots and positive weights every evaluated point is in the convex hull of the control points; with clamped knots the surface starts at the first control point.", "quantifier": "every control grid, degree, knot vector, weight grid and parameter", "why_tests_cant": "It ranges over all degrees, knots and parameters.", "anchors": ["src/yapcad/analytic_surfaces.py:bspline_surface", "src/yapcad/analytic_surfaces.py:evaluate_bspline_surface", "src/yapcad/analytic_surfaces.py:_bspline_basis"]}
{"id": "C302", "title": "The far edges of a clamped spline surface", "statement": "A clamped spline surface ends at the last control point, and its far edges are curves of the surface.", "quantifier": "every control grid, degree, knot vector, weight grid and parameter", "why_tests_cant": "It ranges over all degrees, knots and parameters.", "anchors": ["src/yapcad/analytic_surfaces.py:_bspline_basis", "src/yapcad/analytic_surfaces.py:evaluate_bspline_surface"]}
{"id": "C303", "title": "Moving, turning, mirroring and scaling surfaces", "statement": "translate moves every evaluated point and keeps every normal. After any rotation, mirroring or uniform scaling (factor > epsilon) of a solid, each of its surfaces, stored and read back, is sound and contains exactly the images of the points of the old one; planes turned in place, and spline surfaces, carry each parameter point along.", "quantifier": "every surface made by the constructors, every similarity, every point", "why_tests_cant": "It ranges over all motions and surfaces.", "anchors": ["src/yapcad/native_brep.py:_transform_surface_inplace", "src/yapcad/native_brep.py:translate_native_brep", "src/yapcad/native_brep.py:rotate_native_brep", "src/yapcad/native_brep.py:mirror_native_brep", "src/yapcad/native_brep.py:scale_native_brep"]}
{"id": "C304", "title": "Patches of moved surfaces", "statement": "A rotated or scaled surface covers, over its parameter ranges, the rotated or scaled patch.", "quantifier": "every surface made by the constructors, every similarity, every point", "why_tests_cant": "It ranges over all motions and surfaces.", "anchors": ["src/yapcad/native_brep.py:_transform_surface_inplace", "src/yapcad/native_brep.py:scale_native_brep", "src/yapcad/native_brep.py:_deserialize_surface"]}
{"id": "C305", "title": "Storing surfaces", "statement": "A surface made by a constructor, serialized with its solid and read back, is the same surface, with the same parametrization, ranges, knots and weights.", "quantifier": "every surface made by the constructors", "why_tests_cant": "It ranges over all surfaces.", "anchors": ["src/yapcad/native_brep.py:_serialize_surface", "src/yapcad/native_brep.py:_deserialize_surface"]}
{"id": "C306", "title": "Which interfaces fit", "statement": "A gear fits exactly gears whose module is within 0.1 % and whose pressure angle is within half a degree of its own; a thread fits exactly threads of the opposite gender whose diameter and pitch are within 0.1 %. find_compatible_interfaces lists the registered interfaces of another name that fit, once each. A gear reaches to the tips of its teeth (module (teeth + 2) / 2), a thread to its major diameter. A screw on the axis of its hole, turned in by any length, is an expected overlap.", "quantifier": "every pair of interfaces, every history of the registry and every position of the screw", "why_tests_cant": "It ranges over all gear and thread data and all histories.", "anchors": ["src/yapcad/collision/gear_interface.py:check_compatibility", "src/yapcad/collision/thread_interface.py:check_compatibility", "src/yapcad/collision/registry.py:find_compatible_interfaces", "src/yapcad/collision/interface.py:overlaps_with"]}
{"id": "C307", "title": "When a shell is closed", "statement": "compute_shell_closure counts, for every edge, how often the boundaries of the shell's faces (each once, in whatever order the set is visited) use it; the shell is closed exactly when every count is 0 or 2, the boundary edges are those used once, the non-manifold ones those used more than twice, and V, E, F and the Euler number count distinct corners, edges and faces. If no face uses an edge twice, closed means that every edge of a face is shared by exactly two different faces. For an unknown shell it raises ValueError.", "quantifier": "every topology graph and every shell of it", "why_tests_cant": "It ranges over all graphs and all histories of additions.", "anchors": ["src/yapcad/native_brep.py:compute_shell_closure", "src/yapcad/native_brep.py:shell_edge_usage", "src/yapcad/native_brep.py:shell_vertices"]}
{"id": "C308", "title": "Shells that only claim to be closed", "statement": "A shell accepted as closed bounds a region: it has faces, each edge between two of them; a shell that is refused leaves the graph as it was.", "quantifier": "every topology graph and every shell of it", "why_tests_cant": "It ranges over all graphs and all histories of additions.", "anchors": ["src/yapcad/native_brep.py:add_shell", "src/yapcad/native_brep.py:compute_shell_closure"]}
{"id": "C309", "title": "Who borders whom", "statement": "In a graph whose entities were added in order (new ids, referring to what is there): vertex_edges lists exactly the edges starting or ending at the vertex, once each; edge_faces lists each face as often as its boundary uses the edge; face_edges lists exactly the edges of the face's boundary, once each; every face that names a shell is one of its faces and every face of a shell names one, likewise shells and solids; no id dangles; and a shell accepted as closed is closed for ever.", "quantifier": "every history of additions in order", "why_tests_cant": "It ranges over histories of every length.", "anchors": ["src/yapcad/native_brep.py:add_edge", "src/yapcad/native_brep.py:add_face", "src/yapcad/native_brep.py:add_shell", "src/yapcad/native_brep.py:add_solid", "src/yapcad/native_brep.py:vertex_edges", "src/yapcad/native_brep.py:edge_faces", "src/yapcad/native_brep.py:face_edges"]}
{"id": "C310", "title": "Who borders whom, out of order", "statement": "vertex_edges and edge_faces list every edge of the vertex and every face of the edge once, whatever the order of additions.", "quantifier": "every history of additions in order", "why_tests_cant": "It ranges over histories of every length.", "anchors": ["src/yapcad/native_brep.py:add_edge", "src/yapcad/native_brep.py:add_vertex", "src/yapcad/native_brep.py:vertex_edges", "src/yapcad/native_brep.py:edge_faces"]}
{"id": "C311", "title": "Adding shells and solids", "statement": "add_shell stores the shell and marks its faces; a shell of unknown closedness gets the right value, one declared closed raises ShellClosureError exactly when it is not, one declared open is always accepted. add_solid raises SolidValidationError unless the solid has a shell, all its shells are in the graph, not declared open and closed, no two are found to intersect, and the centre of every void is found to be inside the first.", "quantifier": "every graph, shell and solid, and every outcome of the intersection and containment tests", "why_tests_cant": "It ranges over all graphs and all histories of additions.", "anchors": ["src/yapcad/native_brep.py:add_shell", "src/yapcad/native_brep.py:add_solid", "src/yapcad/native_brep.py:validate_solid"]}
{"id": "C312", "title": "Voids around bodies", "statement": "A validated solid has its voids inside its outer shell; a refused one leaves the graph as it was.", "quantifier": "every graph, shell and solid, and every outcome of the intersection and containment tests", "why_tests_cant": "It ranges over all graphs and all histories of additions.", "anchors": ["src/yapcad/native_brep.py:validate_solid", "src/yapcad/native_brep.py:add_solid"]}
{"id": "C313", "title": "Storing a topology graph", "statement": "A graph built in order, serialized and read back, has the same points, tolerances of vertices, curves, trims, loops, faces, surfaces, solids and tags, the same shells but for their kind, the same closure reports, and evaluates every edge to the same curve.", "quantifier": "every graph built in order whose entities come from the constructors", "why_tests_cant": "It ranges over all graphs and all histories of additions.", "anchors": ["src/yapcad/native_brep.py:serialize_topology_graph", "src/yapcad/native_brep.py:deserialize_topology_graph"]}
{"id": "C314", "title": "What a stored graph loses", "statement": "A graph serialized and read back is the same graph.", "quantifier": "every graph built in order whose entities come from the constructors", "why_tests_cant": "It ranges over all graphs and all histories of additions.", "anchors": ["src/yapcad/native_brep.py:serialize_topology_graph", "src/yapcad/native_brep.py:deserialize_topology_graph"]}
{"id": "C315", "title": "Drawing edges", "statement": "evaluate_edge succeeds exactly when the edge and its ends are in the graph. A line edge is the line from its start to its end. An arc edge given by a centre equally far from both ends starts and ends there; unless the start lies level with the centre it runs anticlockwise, by less than one turn, at that distance.", "quantifier": "all points and centres", "why_tests_cant": "It ranges over all coordinates.", "anchors": ["src/yapcad/native_brep.py:evaluate_edge_curve", "src/yapcad/native_brep.py:evaluate_edge"]}
{"id": "C316", "title": "Drawing arcs by bulge, clockwise arcs, circles", "statement": "An edge is drawn along its curve from its start to its end.", "quantifier": "all points and centres", "why_tests_cant": "It ranges over all coordinates.", "anchors": ["src/yapcad/native_brep.py:evaluate_edge_curve"]}
{"id": "C317", "title": "Moving a topology graph", "statement": "transform_topology_graph maps every point and the points and directions of curves and surfaces, and changes no trim, loop, shell or solid, no closure report, and nothing about who borders whom. Line edges become lines between the images; after a translation or a scaling by a positive factor, arcs given by their centre become their images point by point.", "quantifier": "every graph and every function on points", "why_tests_cant": "It ranges over all graphs, motions and points.", "anchors": ["src/yapcad/native_brep.py:transform_topology_graph", "src/yapcad/native_brep.py:translate_native_brep", "src/yapcad/native_brep.py:scale_native_brep"]}
{"id": "C318", "title": "What stays behind", "statement": "Transforming a graph transforms all its geometry.", "quantifier": "every graph and every function on points", "why_tests_cant": "It ranges over all graphs, motions and points.", "anchors": ["src/yapcad/native_brep.py:TopologyGraph.transform", "src/yapcad/native_brep.py:transform_edge_params", "src/yapcad/native_brep.py:scale_native_brep", "src/yapcad/native_brep.py:mirror_native_brep"]}
{"id": "C319", "title": "What hints are normalised to", "statement": "The metadata transform keeps the keys of a hint in order and treats each value by its key alone: enumerated fields are kept, with an error unless the value is an allowed string; flags become the boolean that true/1/yes or false/0/no names in any case, with an error otherwise; list fields must be lists of dictionaries; the priority becomes a float; a target filter becomes the non-empty, trimmed pieces of the text between commas, or the strings of its entries; feature_id and stage become strings; unknown keys get a warning. The whole hint gets an error for operation fields without operation.kind, a warning for no_cut with subtract, and an info without target filter, and nothing else. It raises only OverflowError, exactly for a priority too large for a float. set_layer stores the layer, or \"default\" for a falsy one; every optional argument of add_bolt_pattern, add_datum, add_surface and add_keepout is stored as it is read (number, text, three numbers, dictionary), or absent when None; a fastener keeps designation, thread and head, the latter two from their lists.", "quantifier": "every hint, every dictionary and arguments", "why_tests_cant": "It ranges over all values of all types and hints of every length.", "anchors": ["src/yapcad/dsl/transforms/metadata.py:MetadataTransform.transform", "src/yapcad/metadata.py:add_bolt_pattern", "src/yapcad/metadata.py:_build_fastener", "src/yapcad/metadata.py:set_layer"]}
{"id": "C320", "title": "The native verdict", "statement": "The native analysis fails exactly when some criterion has a limit, a known comparison and a metric that is found (under the name of the criterion, or that name with dots or bars exchanged), and the metric does not meet the limit as the comparison asks (equality up to the tolerance); it is pending exactly without metrics and criteria; the order of the criteria does not matter, and \"passed\" means that every criterion whose metric was found, with a limit and a known comparison, holds.", "quantifier": "every set of metrics and list of criteria", "why_tests_cant": "It ranges over all metrics, limits, tolerances and lists of criteria of any length.", "anchors": ["src/yapcad/package/analysis/yapcad_native.py:_evaluate_acceptance"]}
{"id": "C321", "title": "Passing without meeting the criteria", "statement": "A passed analysis met all its acceptance criteria, and the verdict does not depend on their order.", "quantifier": "every set of metrics and list of criteria", "why_tests_cant": "It ranges over all metrics, limits, tolerances and lists of criteria of any length.", "anchors": ["src/yapcad/package/analysis/yapcad_native.py:_evaluate_acceptance", "src/yapcad/package/analysis/calculix.py:_evaluate_acceptance", "src/yapcad/package/analysis/fenics.py:_evaluate_acceptance"]}
{"id": "C322", "title": "The verdict of the solver back ends", "statement": "calculix fails exactly when some criterion with a limit (limit or limit_mm), an ordering comparison and a metric found under its name or with _mm does not hold; it passes, given criteria, exactly when none is broken and every metric is found; otherwise it is pending; the order does not matter. fenics passes under the same condition over its own names, and fails exactly when a broken criterion comes before any missing metric. Without criteria both pass if there is any metric, and never fail.", "quantifier": "every set of metrics and list of criteria", "why_tests_cant": "It ranges over all metrics and lists of criteria of any length.", "anchors": ["src/yapcad/package/analysis/calculix.py:_evaluate_acceptance", "src/yapcad/package/analysis/fenics.py:_evaluate_acceptance"]}
{"id": "C323", "title": "The reports of the native back end", "statement": "The acceptance results have one entry per criterion in order, with the value found, the limit and the comparison, and \"passed\" exactly when value, limit and a known comparison are there, true if and only if the comparison holds; the failed criteria are exactly those of ordering comparisons that do not hold, with value, limit and comparison; if every metric is found under the names the report looks for or not at all, the analysis fails exactly when some result did not pass.", "quantifier": "every set of metrics and list of criteria", "why_tests_cant": "It ranges over all metrics and lists of criteria of any length.", "anchors": ["src/yapcad/package/analysis/yapcad_native.py:_get_failed_criteria", "src/yapcad/package/analysis/yapcad_native.py:_build_acceptance_results"]}
{"id": "C324", "title": "Reports that contradict the verdict", "statement": "A failed analysis lists the criteria that failed.", "quantifier": "every set of metrics and list of criteria", "why_tests_cant": "It ranges over all metrics and lists of criteria of any length.", "anchors": ["src/yapcad/package/analysis/yapcad_native.py:_evaluate_acceptance", "src/yapcad/package/analysis/yapcad_native.py:_get_failed_criteria"]}
{"id": "C325", "title": "Validating an analysis plan", "statement": "The report of validate_plan has exactly these errors: missing required fields (all in one, and then nothing else), a kind that is not in its list (nothing else), blank id or backend, a geometry or geometry.entities of the wrong type, acceptance criteria that are no mappings, lack a limit or have an unknown comparison, for checks a missing or wrong check or property for the kind, for simulations materials, loads and boundary conditions of the wrong type and items without type or with an unknown one, each under its path; exactly the listed warnings; so a plan is valid exactly when there is no such error. It raises only TypeError, exactly when a looked-up choice is a list or mapping.", "quantifier": "every plan, as a dictionary of JSON values", "why_tests_cant": "It ranges over all dictionaries, nested lists and mappings of any length.", "anchors": ["src/yapcad/package/analysis/schema.py:validate_plan"]}
{"id": "C326", "title": "Validating an analysis result", "statement": "The report of validate_result has exactly these errors: missing required fields, a status not in its list, a blank plan_id, metrics, acceptance results or artifacts of the wrong type, and entries of them that are no mappings; exactly these warnings: acceptance results without value or passed, artifacts without path, unknown fields. It raises only TypeError, exactly for a status that is a list or mapping.", "quantifier": "every result, as a dictionary of JSON values", "why_tests_cant": "It ranges over all dictionaries, nested lists and mappings of any length.", "anchors": ["src/yapcad/package/analysis/schema.py:validate_result"]}
{"id": "C327", "title": "The results kept in a package", "statement": "Recording a run touches one entry only: the first entry of its plan, or a new one at the end; the entries of other plans stay as they are. The entry has plan, status, path and whatever else the run told, and keeps the other fields. After any history of runs, the entry of a plan tells its last run, and each plan that ran has exactly one entry. The plan itself is listed once, however often it runs.", "quantifier": "every history of runs of any plans, from every list of entries", "why_tests_cant": "It quantifies over histories of any length.", "anchors": ["src/yapcad/package/analysis/cli.py:analyze_package", "src/yapcad/package/analysis/cli.py:_ensure_plan_entry", "src/yapcad/package/analysis/base.py:AnalysisResult.to_manifest_entry"]}
{"id": "C328", "title": "Results of an earlier run", "statement": "The entry of a plan describes its last run only.", "quantifier": "every history of runs of any plans, from every list of entries", "why_tests_cant": "It quantifies over histories of any length.", "anchors": ["src/yapcad/package/analysis/cli.py:analyze_package"]}
{"id": "C329", "title": "Watertight surfaces", "statement": "surface_watertight accepts a surface exactly when every pair of corners is joined by no side or by exactly two sides of its triangles, in whatever direction; its warnings are exactly the number of pairs joined by one side and the list of pairs joined by more than two, each once.", "quantifier": "every surface, however many faces, valid or not", "why_tests_cant": "It ranges over all lists of faces.", "anchors": ["src/yapcad/geometry_checks.py:surface_watertight", "src/yapcad/geometry_checks.py:_edge_key"]}
{"id": "C330", "title": "A watertight surface encloses a volume", "statement": "A surface that surface_watertight accepts is a closed surface of consistently oriented faces.", "quantifier": "every surface, however many faces, valid or not", "why_tests_cant": "It ranges over all lists of faces.", "anchors": ["src/yapcad/geometry_checks.py:surface_watertight"]}
{"id": "C331", "title": "Oriented faces and closed polygons", "statement": "faces_oriented accepts a surface exactly when no triangle of more than tolerance area looks away (by the dot product of the unit normals, beyond the tolerance) from the first one; otherwise it names exactly those that do; it warns about no usable faces exactly when there are none, and raises exactly when a corner of a triangle does not exist. is_closed_polygon accepts exactly non-empty lists whose first and last point are within the tolerance.", "quantifier": "every surface and every list of points", "why_tests_cant": "It ranges over all vertices and faces, and over real coordinates.", "anchors": ["src/yapcad/geometry_checks.py:faces_oriented", "src/yapcad/geometry_checks.py:is_closed_polygon", "src/yapcad/geometry_utils.py:triangle_normal"]}
{"id": "C332", "title": "Consistent orientation", "statement": "faces_oriented accepts a mesh exactly when neighbouring faces run along their common side in opposite directions.", "quantifier": "every surface and every list of points", "why_tests_cant": "It ranges over all vertices and faces, and over real coordinates.", "anchors": ["src/yapcad/geometry_checks.py:faces_oriented"]}
{"id": "C333", "title": "The mesh centroid is the centre of mass", "statement": "For a closed, consistently oriented mesh the centroid computed by the native back end is the volume-weighted mean of the centres of the tetrahedra over its triangles, from whatever apex they are drawn; it is the only such point, and it exists exactly when the enclosed volume is at least 1e-10.", "quantifier": "all solids whose triangles match side by side, all apexes", "why_tests_cant": "Ranges over all meshes, so no finite set of solids settles it; rounding-free statement over the reals.", "anchors": ["src/yapcad/package/analysis/yapcad_native.py: _mesh_centroid"]}
{"id": "C334", "title": "The centroid moves with the solid", "statement": "Translating, mirroring, rotating about a unit axis or scaling (about the origin, by factors that keep the volume above the threshold) a closed oriented solid moves its centroid by the same map.", "quantifier": "all closed oriented solids, all displacements of at least one tolerance, all named planes, angles, centres, unit axes and scale factors", "why_tests_cant": "Ranges over all meshes, so no finite set of solids settles it; rounding-free statement over the reals.", "anchors": ["src/yapcad/package/analysis/yapcad_native.py: _mesh_centroid", "src/yapcad/geom3d.py: translatesolid, rotatesolid, mirrorsolid, scalesolid"]}
{"id": "C335", "title": "The centroid lies within the body", "statement": "If some point sees every triangle of a closed oriented mesh from the same side, the centroid lies in every half-space, and in every box, that contains that point and the corners.", "quantifier": "all meshes, all such points and half-spaces", "why_tests_cant": "Ranges over all meshes, so no finite set of solids settles it; rounding-free statement over the reals.", "anchors": ["src/yapcad/package/analysis/yapcad_native.py: _mesh_centroid"]}
{"id": "C336", "title": "The centroid does not depend on order or orientation", "statement": "Listing the triangles in another order, or reversing every surface, leaves the centroid unchanged.", "quantifier": "all solids, all permutations of their triangles", "why_tests_cant": "Ranges over all meshes, so no finite set of solids settles it; rounding-free statement over the reals.", "anchors": ["src/yapcad/package/analysis/yapcad_native.py: _mesh_centroid", "src/yapcad/geom3d.py: reversesurface"]}
{"id": "C337", "title": "Tetrahedra, and bodies put together", "statement": "The centroid of a tetrahedron is the mean of its corners, and the centroid of the surfaces of two bodies taken together is the mean of their centroids weighted with their signed volumes.", "quantifier": "all tetrahedra above the volume threshold; all pairs of solids with centroids", "why_tests_cant": "Ranges over all meshes, so no finite set of solids settles it; rounding-free statement over the reals.", "anchors": ["src/yapcad/package/analysis/yapcad_native.py: _mesh_centroid"]}
{"id": "C338", "title": "Reports of volumes and areas", "statement": "A volume or area check reports the sum over the parts, the number of parts, the same sum under the key with the units, and for more than one part each part under its own index; it fails exactly when there is no solid or some part has no volume.", "quantifier": "all lists of solids and unit strings", "why_tests_cant": "Ranges over all assemblies and unit strings: keys could collide for some of them.", "anchors": ["src/yapcad/package/analysis/yapcad_native.py: _check_volume", "src/yapcad/package/analysis/yapcad_native.py: _check_area", "src/yapcad/package/analysis/yapcad_native.py: _mesh_surface_area"]}
{"id": "C339", "title": "Reports of masses", "statement": "A mass check reports the total volume as cubic millimetres, converted to cubic metres, and that times the density (2700 when none is given) in kilograms and grams, and likewise for each of several parts.", "quantifier": "all lists of solids and densities", "why_tests_cant": "Ranges over all assemblies and densities.", "anchors": ["src/yapcad/package/analysis/yapcad_native.py: _check_mass"]}
{"id": "C340", "title": "Reports of bounding boxes", "statement": "A box check reports the least box around all vertices of all parts, its sides and diagonal, and a side under a key with the units exactly for the axes asked for.", "quantifier": "all non-empty lists of solids whose surfaces have at least two vertices, all axes and units", "why_tests_cant": "Ranges over all assemblies; tightness and containment for every vertex.", "anchors": ["src/yapcad/package/analysis/yapcad_native.py: _check_bbox", "src/yapcad/geom3d.py: solidbbox"]}
{"id": "C341", "title": "Reports of centroids of assemblies", "statement": "A centroid check reports the mean of the parts' centroids weighted with their (unsigned) volumes, and for several parts each centroid under its own index.", "quantifier": "all lists of solids", "why_tests_cant": "Ranges over all assemblies.", "anchors": ["src/yapcad/package/analysis/yapcad_native.py: _check_centroid", "src/yapcad/package/analysis/yapcad_native.py: _compute_solid_centroid"]}
{"id": "C342", "title": "A check measures what it is asked to measure, in the units asked for", "statement": "The number under volume_<units> is the volume in those units, and a check that names entities measures those entities.", "quantifier": "all lists of solids and unit strings", "why_tests_cant": "Ranges over all assemblies and unit strings: keys could collide for some of them.", "anchors": ["src/yapcad/package/analysis/yapcad_native.py: _check_volume", "src/yapcad/package/analysis/yapcad_native.py: _load_geometry"]}
{"id": "C343", "title": "Load cases and bolt patterns that are accepted", "statement": "A load case is accepted exactly when its group, frame and status are among the named ones, a magnitude is given in newtons or in g, and the direction has three entries; from_dict yields only such cases, with the fields the dictionary has; a bolt pattern is accepted exactly when diameter and number are positive and the access direction has three entries.", "quantifier": "all field values and dictionaries", "why_tests_cant": "Ranges over all Python values in each field.", "anchors": ["src/yapcad/assembly/load_case.py: LoadCase.__post_init__, LoadCase.from_dict", "src/yapcad/assembly/load_case.py: BoltPattern.__post_init__"]}
{"id": "C344", "title": "Load cases survive a round trip", "statement": "Writing an accepted load case whose position is a sequence and reading it gives the same case (the sequences as lists, the flag as a bool), and writing that again gives the same dictionary; a case can be written exactly when direction and position are sequences; a bolt pattern with a whole number of bolts comes back as it was.", "quantifier": "all accepted load cases and bolt patterns", "why_tests_cant": "Ranges over all values, absent and present magnitudes and flags.", "anchors": ["src/yapcad/assembly/load_case.py: LoadCase.to_dict, from_dict", "src/yapcad/assembly/load_case.py: BoltPattern.to_dict, from_dict"]}
{"id": "C345", "title": "Registries of load cases and bolt patterns", "statement": "A load case is registered exactly when its part exists (or is _assembly) and its id is new, a bolt pattern exactly when both parts exist and the pair is new; it is then found under that key, all other keys are as before, and load cases are exported in the order of registration.", "quantifier": "all registries, ids, parts", "why_tests_cant": "Ranges over all histories of registrations.", "anchors": ["src/yapcad/assembly/assembly.py: Assembly.add_load_case, get_load_case", "src/yapcad/assembly/assembly.py: Assembly.add_bolt_pattern, get_bolt_pattern", "src/yapcad/assembly/mechatron_export.py: to_mechatron_snapshot"]}
{"id": "C346", "title": "Interfaces of an exported assembly", "statement": "The export has one interface for each pair of parts that some mate joins in that order, in order of first occurrence, with exactly the mates of that pair in order, and the bolt pattern registered for that pair; every mate is in one.", "quantifier": "all lists of mates and registries", "why_tests_cant": "Ranges over all lists of mates.", "anchors": ["src/yapcad/assembly/mechatron_export.py: to_mechatron_snapshot, _interface_for_mate_group"]}
{"id": "C347", "title": "Whatever was accepted can be written, read again and found in the export", "statement": "Every accepted load case can be written, every accepted bolt pattern survives a round trip, and every registered bolt pattern is exported.", "quantifier": "all accepted load cases and bolt patterns", "why_tests_cant": "Ranges over all values, absent and present magnitudes and flags.", "anchors": ["src/yapcad/assembly/load_case.py: LoadAttach.to_dict", "src/yapcad/assembly/load_case.py: BoltPattern.to_dict", "src/yapcad/assembly/mechatron_export.py: _interface_for_mate_group"]}
{"id": "C348", "title": "Walking an expression leaves it unchanged", "statement": "TreeTransform().visit_expression, with no overrides, returns an expression equal to the one given whenever no function call, list comprehension, method call with named arguments or if expression with elif branches is met on the way; it raises exactly when a function call or a list comprehension is met, and then AttributeError.", "quantifier": "all expressions of the syntax tree", "why_tests_cant": "Ranges over all trees, of any depth.", "anchors": ["src/yapcad/dsl/transforms/base.py: TreeTransform.visit_expression and the visit methods of expressions"]}
{"id": "C349", "title": "An override of visit_identifier reaches each identifier on the way once", "statement": "With visit_identifier overridden to rename identifiers, the identifiers of the result at the places the walk enters are those of the given expression, renamed, in the same order and number.", "quantifier": "all expressions and all renamings", "why_tests_cant": "Ranges over all trees and all renamings.", "anchors": ["src/yapcad/dsl/transforms/base.py: TreeTransform.visit_expression, visit_identifier"]}
{"id": "C350", "title": "The default walk changes nothing", "statement": "For every expression and block the default walk returns an equal one.", "quantifier": "all expressions of the syntax tree", "why_tests_cant": "Ranges over all trees, of any depth.", "anchors": ["src/yapcad/dsl/transforms/base.py: visit_method_call, visit_if_expr, visit_function_call, visit_block"]}
{"id": "C351", "title": "An override reaches every identifier", "statement": "An overridden visit_identifier is applied to every identifier of a tree.", "quantifier": "all expressions and all renamings", "why_tests_cant": "Ranges over all trees and all renamings.", "anchors": ["src/yapcad/dsl/transforms/base.py: visit_expression, visit_statement"]}
{"id": "C352", "title": "A tree transform returns a module", "statement": "TreeTransform.transform, and a pipeline with a TreeTransform in it, return a module.", "quantifier": "all expressions of the syntax tree", "why_tests_cant": "Ranges over all trees, of any depth.", "anchors": ["src/yapcad/dsl/transforms/base.py: TreeTransform.visit_module, visit_command"]}
{"id": "C353", "title": "Pipelines apply their transforms in order", "statement": "TransformPipeline.apply feeds the module to the first transform and each result to the next, and returns the last result; it raises exactly what the first transform to raise raises, and later ones do not run; the identity transform can be left out anywhere; add puts a transform at the end of that list only; a pipeline made with no transforms or an empty list has a list of its own.", "quantifier": "all sequences of transforms, all modules", "why_tests_cant": "Ranges over all transforms, as functions that may raise, and all lengths.", "anchors": ["src/yapcad/dsl/transforms/base.py: TransformPipeline, IdentityTransform"]}
{"id": "C354", "title": "Pipelines do not share", "statement": "Adding a transform to one pipeline leaves other pipelines, and the list it was made from, as they were.", "quantifier": "all sequences of transforms, all modules", "why_tests_cant": "Ranges over all transforms, as functions that may raise, and all lengths.", "anchors": ["src/yapcad/dsl/transforms/base.py: TransformPipeline.__init__, add"]}
{"id": "C355", "title": "Viewer configurations survive a round trip", "statement": "A configuration is accepted exactly when stl_dir is a string and each other path is a string or falsy; screenshots go to the directory given, or to renders under stl_dir; ViewerConfig.from_dict(config.to_dict()) is the same configuration with the screenshot directory spelt out and empty paths None, with the same derived paths, and writes the same dictionary again.", "quantifier": "all configurations whose size and colours are tuples and whose palette maps names to tuples", "why_tests_cant": "Ranges over all values of all thirteen fields.", "anchors": ["src/yapcad/viewer/config.py: ViewerConfig.__post_init__, to_dict, from_dict"]}
{"id": "C356", "title": "Colours of the palette are found in any spelling", "statement": "get_color gives the palette entry whose key is the lower-cased name, whatever the case of the name, and the default colour exactly when there is none.", "quantifier": "all palettes and names", "why_tests_cant": "Ranges over all palettes and names.", "anchors": ["src/yapcad/viewer/config.py: ViewerConfig.get_color"]}
{"id": "C357", "title": "Every colour of the palette is found under its name", "statement": "For every key of color_palette, get_color of that key is its colour.", "quantifier": "all palettes and names", "why_tests_cant": "Ranges over all palettes and names.", "anchors": ["src/yapcad/viewer/config.py: ViewerConfig.get_color"]}
{"id": "C358", "title": "from_dict leaves the dictionary it is given as it was", "statement": "ViewerConfig.from_dict does not change its argument.", "quantifier": "all configurations whose size and colours are tuples and whose palette maps names to tuples", "why_tests_cant": "Ranges over all values of all thirteen fields.", "anchors": ["src/yapcad/viewer/config.py: ViewerConfig.from_dict"]}
{"id": "C359", "title": "The registry of analysis back ends", "statement": "After any calls of register_backend, get_backend returns the adapter class registered last under the name, in any spelling of its letters, and nothing when there is none; what is no adapter class is refused and changes nothing; available_backends lists the lower-cased names under which something was registered, each once, in sorted order.", "quantifier": "all histories of registrations, all names", "why_tests_cant": "Ranges over all histories of calls.", "anchors": ["src/yapcad/package/analysis/base.py: register_backend, get_backend, available_backends"]}

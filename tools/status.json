{"C01": {"status": "proved", "note": "Termination for every text (fuel shown sufficient and immaterial); last token is the only EOF. CPython recursion limit for >~1000 consecutive newlines inside brackets is not modelled."},
 "C02": {"status": "proved", "note": "Spans, positions, order, and completeness (nothing dropped)."},
 "C03": {"status": "proved", "note": "Every INDENT closed; balance iff counts agree. The converse direction (no stray DEDENT) is refuted in C63."},
 "C04": {"status": "proved", "note": "Any spelling, three quote styles; every string has a spelling."},
 "C05": {"status": "proved", "note": "Decimal, hex, binary. Underscores in decimal literals split the token (shown)."},
 "C06": {"status": "proved", "note": "parse is total on every token list; result independent of the recursion bound. CPython recursion limit not modelled. The TypeError escape is C66."},
 "C07": {"status": "proved", "note": "grammar relation G and minimal-parentheses writer in Parse_Spec; proved for whole programs around the expression. if/match expressions (indented blocks) are outside G."},
 "C08": {"status": "proved", "note": "while_free is an inductive over the whole AST."},
 "C09": {"status": "proved", "note": "exact characterisation for every nesting; full transitivity is C68."},
 "C10": {"status": "proved", "note": "graph-level model: the call graph is given; how calls are collected from the bodies is not part of this model."},
 "C11": {"status": "partial", "note": "REFUTED: a command declared `-> int` emits a string (a variable declared in a loop body survives into the next turn, while the checker resolves the name to the outer variable); parameter values are not checked; list elements carry the type of the first element."},
 "C12": {"status": "proved", "note": "Exception made explicit in the statement: names bound by match patterns (see C76)."},
 "C13": {"status": "proved", "note": "Host built-ins and inline Python are assumed to return; the exception is C72."},
 "C14": {"status": "proved", "note": "The limit is also shown exact for unbounded recursion."},
 "C15": {"status": "proved", "note": "Requirements of called commands: see C73."},
 "C16": {"status": "proved", "note": ""},
 "C17": {"status": "proved", "note": "Short-circuiting does not hold: see C74."},
 "C18": {"status": "proved", "note": ""},
 "C19": {"status": "proved", "note": "An expression ending a body is not a statement: see C75."},
 "C20": {"status": "partial", "note": "REFUTED: `x = e` parses as a declaration in the loop scope; after any loop without assignment statements every outer variable is unchanged, and summing [1,2,3] gives 0."},
 "C21": {"status": "proved", "note": "sha256 and str.isspace are parameters; strings with lone surrogates, on which encode() raises, are outside."},
 "C22": {"status": "proved", "note": "YAML, hashing and geometry_from_json are parameters; ill-typed manifests may raise instead of answering."},
 "C23": {"status": "proved", "note": "Assumes that YAML gives back what it was given and that geometry_from_json reads what geometry_to_json wrote."},
 "C24": {"status": "proved", "note": ""},
 "C25": {"status": "proved", "note": "Ordinary text: no lone surrogates; string keys; float repr is injective and never looks like another JSON token."},
 "C26": {"status": "proved", "note": "gpg and ssh-keygen are parameters. Which signer made it: see C103; earlier signatures overwritten: see C104."},
 "C27": {"status": "proved", "note": "For every geometry type and boolean engine (an arbitrary partial function)."},
 "C28": {"status": "proved", "note": "A cutter whose target does not exist is C56 (refuted)."},
 "C29": {"status": "proved", "note": "Warnings and retained cutters: C58 (refuted)."},
 "C30": {"status": "proved", "note": "Names shared by a file and its part_name: see C117 and C118."},
 "C31": {"status": "proved", "note": "For arbitrary transforms and joints. Replacing an occupied frame and assigning joint.value directly: C59 (refuted). CPython's recursion limit and external datum frames are not modelled."},
 "C32": {"status": "proved", "note": "Exact over the reals; rounding is not modelled. Euler angle extraction: C60 (refuted)."},
 "C33": {"status": "proved", "note": "NaN is outside the real-number model."},
 "C34": {"status": "proved", "note": "Excluded cases are C61 (refuted)."},
 "C35": {"status": "proved", "note": "Histories that do not assign to fields of registered interfaces; see C108 for those."},
 "C36": {"status": "proved", "note": "Rounding to single and key rounding are parameters. Names beginning with \"solid\" together with huge numbers: see C128."},
 "C37": {"status": "proved", "note": "Real arithmetic; sampled curves are not modelled. See C133-C137."},
 "C38": {"status": "proved", "note": "Exact over the reals; transposed views included."},
 "C39": {"status": "proved", "note": "Real entries; indices 0..3 (others raise ValueError). See C140-C142 for programs that hand a row on."},
 "C40": {"status": "proved", "note": "See Xform_Props.v."},
 "C41": {"status": "proved", "note": "Partial arcs are C51 (refuted)."},
 "C42": {"status": "proved", "note": "Lines, polylines and arcs."},
 "C43": {"status": "proved", "note": "Segments below the tolerance: C52 (refuted)."},
 "C44": {"status": "proved", "note": "False answers for polygons: C53 (refuted)."},
 "C45": {"status": "proved", "note": "inside=True points and params=True: C54 (refuted)."},
 "C46": {"status": "proved", "note": "Real arithmetic. B-splines with fewer than 10^12 spans; Catmull-Rom with alpha >= 0 and neighbours equal or at least 1e-12 apart (to the power alpha). See C138, C139."},
 "C47": {"status": "proved", "note": "BREP elements (OpenCASCADE) and the subclasses Polygon and Boolean are outside the model. The excluded histories are C143-C146."},
 "C48": {"status": "proved", "note": "Polylines and double reversal: C55 (refuted)."},
 "C49": {"status": "partial", "note": "REFUTED: a non-unit axis raises AttributeError (xform.py:206 evaluates geom.geom.scale3)."},
 "C50": {"status": "partial", "note": "REFUTED: geom.py:4141-4143 composes the two translations in the wrong order."},
 "C51": {"status": "partial", "note": "REFUTED: arcbbox uses five samples; the arc 0..100 degrees leaves its box at 90 degrees."},
 "C52": {"status": "partial", "note": "REFUTED: two segments of length 0.04 crossing at right angles are reported as not meeting (denom^2 < epsilon)."},
 "C53": {"status": "partial", "note": "REFUTED: isInsideConvexPolyXY triangulates as a strip and misses interior points; isinsidepolyXY counts a vertex crossing twice and reports the centre of the unit square as outside."},
 "C54": {"status": "partial", "note": "REFUTED: params is |1-u| instead of u; with inside=True the mirrored candidate is returned for points closer than about 1e-3 to the line."},
 "C55": {"status": "partial", "note": "REFUTED: a polyline becomes None (list.reverse() returns None) and an arc reversed twice stays reversed."},
 "C56": {"status": "partial", "note": "REFUTED: a misspelt target_filter makes the cutter vanish with success=True and no message."},
 "C57": {"status": "partial", "note": "REFUTED: the flag is never read; erasing it changes nothing."},
 "C58": {"status": "partial", "note": "REFUTED: ResolvedPart is rebuilt with empty lists; a stage name listed twice runs its operations twice."},
 "C59": {"status": "partial", "note": "REFUTED: no cache is invalidated; both leave a stale world transform."},
 "C60": {"status": "partial", "note": "REFUTED: to_euler_xyz extracts Rz*Ry*Rx angles but from_euler_xyz composes Rx*Ry*Rz; (45,0,45) is a witness away from gimbal lock."},
 "C61": {"status": "partial", "note": "REFUTED: to_dict skips GLOBAL_DATUM, so its frames are lost and children fall back to ORIGIN; the topological sort ignores an empty parent name and from_dict can raise ValueError."},
 "C62": {"status": "proved", "note": "get_chain_to_root assumes non-empty part names (an empty name ends the walk)."},
 "C63": {"status": "partial", "note": "REFUTED: a line indented between two open levels ('a', '    b', '  c') yields two DEDENTs for one INDENT, without an error (lexer.py:204-207 pushes the level silently)."},
 "C64": {"status": "partial", "note": "REFUTED: after a leading /* */ comment, or a string containing a line break, at_line_start is still set, so an INDENT (and later a DEDENT) appears in the middle of the line."},
 "C65": {"status": "proved", "note": "Names universally; reserved words and operators over the whole table of the reference."},
 "C66": {"status": "partial", "note": "REFUTED: @meta(x=-\"s\") applies unary minus to a Python str while building the hint and lets TypeError escape."},
 "C67": {"status": "partial", "note": "REFUTED: the lexer makes `native` a keyword token and the decorator parser demands an identifier, so every program that starts with @native is refused."},
 "C68": {"status": "partial", "note": "REFUTED: point2d accepts point and point accepts point3d, but point2d does not accept point3d."},
 "C69": {"status": "partial", "note": "REFUTED: list<point2d> and list<point3d> both fit list<point>, yet common_type gives None."},
 "C70": {"status": "partial", "note": "REFUTED: OptionalTypeWrapper only asks the inner type, which refuses none."},
 "C71": {"status": "partial", "note": "REFUTED: with calls 0->1, 0->2, 1->0, 2->1 only the cycle 0,1 is reported; 2, on the cycle 0,2,1, is never named."},
 "C72": {"status": "partial", "note": "REFUTED: def f(x: int = f(y=1), y: int = 0) evaluates its default, which calls f again, before the depth counter is incremented, so no recursion limit stops it (in CPython: RecursionError escapes)."},
 "C73": {"status": "partial", "note": "REFUTED: a requirement that fails in a called command is recorded in the callee context only and dropped; the caller reports success."},
 "C74": {"status": "partial", "note": "REFUTED: both operands are always evaluated first: `y != 0 and 10 // y > 1` raises ZeroDivisionError for y = 0."},
 "C75": {"status": "partial", "note": "REFUTED: the parser turns it into the block's final expression, which the interpreter never evaluates (replacing all of them changes no execution)."},
 "C76": {"status": "partial", "note": "REFUTED: the pattern overwrites the variable in the current scope."},
 "C77": {"status": "partial", "note": "REFUTED: only RuntimeError is caught: `1 // 0` escapes as ZeroDivisionError, and so do AttributeErrors and TypeErrors."},
 "C78": {"status": "partial", "note": "REFUTED: defaults are evaluated in the scope of the caller, so they see its local variables."},
 "C79": {"status": "partial", "note": "REFUTED: they are dropped: for every call with a positional argument, removing all keyword arguments changes nothing."},
 "C80": {"status": "partial", "note": "REFUTED: the result is an EmitResult without is_truthy: every such condition raises AttributeError."},
 "C81": {"status": "partial", "note": "REFUTED: no method is ever registered: every method call fails."},
 "C82": {"status": "partial", "note": "REFUTED: selecting a block raises; only an if expression with no selected block has a value (none)."},
 "C83": {"status": "partial", "note": "REFUTED: the namespace is filled so that the outermost binding wins."},
 "C84": {"status": "proved", "note": ""},
 "C85": {"status": "proved", "note": ""},
 "C86": {"status": "proved", "note": "The host's own operations (floats, geometry) are assumed not to report undefined DSL variables."},
 "C87": {"status": "proved", "note": ""},
 "C88": {"status": "partial", "note": "REFUTED: check() raises AttributeError on every return statement; it escapes from compile_and_run."},
 "C89": {"status": "partial", "note": "REFUTED: accepted but failing: a default that mentions an earlier parameter, a type or built-in name used as a value, an undeclared name in a keyword argument of a command, a required parameter after a default one."},
 "C90": {"status": "partial", "note": "REFUTED: the checker never compares the number of arguments of a command call; too few and too many are accepted and fail at run time."},
 "C91": {"status": "partial", "note": "REFUTED: arithmetic on a parameter without annotation, `x: list<int> = []` and concatenation of two strings are rejected although they run."},
 "C92": {"status": "proved", "note": ""},
 "C93": {"status": "partial", "note": "REFUTED: a command named like a built-in that calls itself gets none; the interpreter then exceeds the recursion limit."},
 "C94": {"status": "proved", "note": ""},
 "C95": {"status": "partial", "note": "REFUTED: 13 built-ins (close, closeC0, closeC1, cylindrical_surface, empty_region, empty_solid, is_empty, join, loft_surface, path, planar_surface, planet_gear_with_hub, shell) are accepted and always fail at run time."},
 "C96": {"status": "partial", "note": "REFUTED: 13 registered built-ins (chamfer_edges, fillet_edges, select_*_edges, union_edges, ...) are unknown to the checker, so every program calling them is rejected."},
 "C97": {"status": "partial", "note": "REFUTED: extra arguments are never rejected (sin(1.0, 2.0)), text_solid is accepted with three arguments but takes four; the TypeError escapes from compile_and_run."},
 "C98": {"status": "partial", "note": "REFUTED: the validator always computes SHA-256: with sha512 the intact package fails, for all contents."},
 "C99": {"status": "partial", "note": "REFUTED: with overwrite=True a file listed in another section becomes stale; metadata can override the hash; all calls succeed and validation fails."},
 "C100": {"status": "partial", "note": "REFUTED: the file is truncated before yaml.safe_dump raises RepresenterError: the manifest is lost."},
 "C101": {"status": "partial", "note": "REFUTED: an unsupported category raises after the destination file was overwritten, which invalidates the package."},
 "C102": {"status": "partial", "note": "REFUTED: a surrogate pair and the character it stands for (both accepted by YAML escapes) give the same digest, for every key."},
 "C103": {"status": "partial", "note": "REFUTED: the name comes from the unsigned manifest entry: replacing every signer by any text leaves all statuses as they were."},
 "C104": {"status": "partial", "note": "REFUTED: all GPG signatures share manifest.sig.asc, and SSH file names keep 20 characters of the signer: the second overwrites the first."},
 "C105": {"status": "partial", "note": "REFUTED: without allowed_signers any text file counts as a valid SSH signature of an untrusted signer."},
 "C106": {"status": "partial", "note": "REFUTED: verification reads only the manifest and the signature files; the answer is the same whatever the other files hold."},
 "C107": {"status": "partial", "note": "REFUTED: one valid signature beside one of unknown method: is_valid is True, overall_status is ERROR."},
 "C108": {"status": "partial", "note": "REFUTED: the indices keep the old part; after unregistering, looking up the old part raises KeyError."},
 "C109": {"status": "proved", "note": "The geometric test is a parameter."},
 "C110": {"status": "proved", "note": "Real arithmetic."},
 "C111": {"status": "partial", "note": "REFUTED: for non-parallel axes only the distance of the centers is compared with the radii: long cylinders crossing away from their centers are missed."},
 "C112": {"status": "partial", "note": "REFUTED: the module tolerance is relative to the first gear's module."},
 "C113": {"status": "partial", "note": "REFUTED: an empty registry is false (it has __len__) and is replaced by a new one, so later registrations are not seen."},
 "C114": {"status": "partial", "note": "REFUTED: the transforms are not applied to the interfaces; the verdict is the same for all placements."},
 "C115": {"status": "proved", "note": "Real arithmetic."},
 "C116": {"status": "partial", "note": "REFUTED: every two gears of one module that touch are excused, also 6 planets of 36 teeth around a sun of 18."},
 "C117": {"status": "partial", "note": "REFUTED: a loaded file and the part it names share one object: a datum registered for the part shows up in the file."},
 "C118": {"status": "partial", "note": "REFUTED: loading a file replaces whatever was registered under its part_name."},
 "C119": {"status": "partial", "note": "REFUTED: registering before the first lookup marks the source as loaded: the file is never read."},
 "C120": {"status": "partial", "note": "REFUTED: a failed lookup registers an empty source, which is listed and never searched for again."},
 "C121": {"status": "partial", "note": "REFUTED: it iterates over the keys of the datum dictionary and raises AttributeError for every part that has datums."},
 "C122": {"status": "proved", "note": "Real arithmetic; composition for datums without vectors of other kinds (see C123)."},
 "C123": {"status": "partial", "note": "REFUTED: vectors other than those of its kind come back with w = 1, so the next translation is added to them."},
 "C124": {"status": "proved", "note": "Real arithmetic. Frames: see C125."},
 "C125": {"status": "partial", "note": "REFUTED: axes are neither required nor made orthogonal or of unit length."},
 "C126": {"status": "proved", "note": "Within epsilon; real arithmetic."},
 "C127": {"status": "partial", "note": "REFUTED: the dot product of vectors that need not have unit length is compared with 1."},
 "C128": {"status": "partial", "note": "REFUTED: a name beginning with \"solid\" and a number whose bytes spell \"facet\" make the file read as an empty text file."},
 "C129": {"status": "proved", "note": "Formatting and parsing of one number are parameters; names with the word facet: see C132."},
 "C130": {"status": "proved", "note": "Real arithmetic."},
 "C131": {"status": "partial", "note": "REFUTED: triangles with twice the area at most 5e-6 (sides of 0.002) and all faces with more than three corners are dropped silently."},
 "C132": {"status": "partial", "note": "REFUTED: the name is copied into the file unescaped and can contain facets."},
 "C133": {"status": "partial", "note": "REFUTED: it raises AttributeError."},
 "C134": {"status": "partial", "note": "REFUTED: when the centre lies outside the elements the first query raises and the next returns nothing, because the tree is marked as built before it is."},
 "C135": {"status": "partial", "note": "REFUTED: the tree's own box does not include the margin of the points' boxes, so points at its border can be missed."},
 "C136": {"status": "partial", "note": "REFUTED: the constructor keeps the caller's list and addElement extends it in place; elements the caller appends are in the tree but never found."},
 "C137": {"status": "partial", "note": "REFUTED: a tree that got its elements by addElement has no bounding box before its first query: AttributeError."},
 "C138": {"status": "partial", "note": "REFUTED: with an interior knot every non-empty span counts at the last parameter: the default quadratic through x = 0,1,2,3 ends at x = 2.5."},
 "C139": {"status": "partial", "note": "REFUTED: the knot vector is too short for the extended control points: every closed B-spline of degree two or more raises IndexError."},
 "C140": {"status": "partial", "note": "REFUTED: Matrix(A) of an untransposed A keeps A's row lists: B = Matrix(A); B.set(0,0,5) sets A too."},
 "C141": {"status": "partial", "note": "REFUTED: setrow keeps the list that getrow hands out, so A.set then changes B."},
 "C142": {"status": "partial", "note": "REFUTED: the list is read while it is being overwritten: with row 0 = 1 2 3 4, A.setcol(1, A.getrow(0)) stores 1 1 3 4."},
 "C143": {"status": "partial", "note": "REFUTED: the cached triangulation is not cleared: after g.surface(); g.translate(d), g.surface() is the surface of the old figure (all figures other than solids)."},
 "C144": {"status": "partial", "note": "REFUTED: the box is recomputed only if there is none: after g.bbox; g.translate(d), g.bbox is the old box."},
 "C145": {"status": "partial", "note": "REFUTED: assigning elem does not mark the object for update."},
 "C146": {"status": "partial", "note": "REFUTED: the update flag is cleared first: the second query returns the length of the previous figure."},
 "C147": {"status": "proved", "note": "Whole helpers over JSON-like data; aliasing between argument and stored value is not modelled."},
 "C148": {"status": "proved", "note": "None is accepted: see C151."},
 "C149": {"status": "proved", "note": "List fields are C152."},
 "C150": {"status": "proved", "note": "float(float) and str(str) are assumed to be identities (honest)."},
 "C151": {"status": "partial", "note": "REFUTED: kind=None passes _validate_enum and is stored as None."},
 "C152": {"status": "partial", "note": "REFUTED: tags and list fields (bolt_patterns, datums, surfaces, keepouts) are appended again each time."},
 "C153": {"status": "partial", "note": "REFUTED: the two joint_kind vocabularies are disjoint: all seven kinds the transform accepts raise ValueError when applied, all four runtime kinds are reported as errors; the feature_kind vocabularies share only pocket."},
 "C154": {"status": "proved", "note": ""},
 "C155": {"status": "partial", "note": "REFUTED: it stores a root dictionary (schema, tags, layer) into the solid, even one that had no metadata."},
 "C156": {"status": "proved", "note": "An empty assembly namespace may have been created (add_bolt_pattern with a bad number); set_operation is C157."},
 "C157": {"status": "partial", "note": "REFUTED: kind (and the fields before the failing one) are already stored: set_operation(s, kind='union', priority='x') raises and leaves kind='union'."},
 "C158": {"status": "proved", "note": ""},
 "C159": {"status": "proved", "note": "The reference semantics is a separate inductive definition (Interp_Ref.v). Not in the fragment: floats, strings, geometry, native code, assignment to an outer variable, match, lambda, nested comprehensions, truth values returned by a command (see C80: they raise when used as conditions)."},
 "C160": {"status": "proved", "note": "Over the reals; BREP fallback not modelled."},
 "C161": {"status": "proved", "note": "For scaling both volumes are assumed defined (shrinking may merge corners within the tolerance)."},
 "C162": {"status": "proved", "note": ""},
 "C163": {"status": "proved", "note": "Non-uniform factors up to 1e9 and not closer than the tolerance unless equal."},
 "C164": {"status": "proved", "note": ""},
 "C165": {"status": "proved", "note": ""},
 "C166": {"status": "proved", "note": ""},
 "C167": {"status": "proved", "note": ""},
 "C168": {"status": "partial", "note": "REFUTED: issolidclosed counts sides without regard to direction, so a tetrahedron with one face turned round is accepted; its volume is 1/6 and after translation by (1,0,0) 1/2."},
 "C169": {"status": "partial", "note": "REFUTED: the translations are applied the wrong way round: with k=2 about (1,0,0) the vertex (1,0,0) moves to (3,0,0)."},
 "C170": {"status": "partial", "note": "REFUTED: factor -1 leaves the index order alone, so the signed volume becomes negative (inside out)."},
 "C171": {"status": "partial", "note": "REFUTED: with sz omitted the default False is divided by: ZeroDivisionError for scalesurface(s, 2, 3)."},
 "C172": {"status": "partial", "note": "REFUTED: the filter keeps only non-integers, so face (0,1,7) of a 4-vertex surface passes and surfacearea raises IndexError."},
 "C173": {"status": "partial", "note": "REFUTED: raises ValueError for every such argument."},
 "C174": {"status": "partial", "note": "REFUTED: the triangle test is applied regardless; (5,5,0) is not found for the unit triangle."},
 "C175": {"status": "partial", "note": "REFUTED: a triangle smaller than the tolerance becomes face (0,0,0)."},
 "C176": {"status": "partial", "note": "REFUTED: a shared vertex keeps the first triangle's normal."},
 "C177": {"status": "proved", "note": "A centre within the tolerance of the origin is ignored by the code (box placed at the origin); the statement says so. Over the reals; BREP attachment not modelled."},
 "C178": {"status": "proved", "note": "The mesh path (no OCC). The smallness condition is needed: see C179."},
 "C179": {"status": "partial", "note": "REFUTED: conic(0.0005, 0.0005, 0.0005, angr=30) raises ValueError (the facets' cross products are below the tolerance), and conic(0.0005, 0, 0.0005, angr=30) returns a solid without side faces on which volumeof raises ValueError, though both are 100 times the tolerance."},
 "C180": {"status": "proved", "note": "Over the reals."},
 "C181": {"status": "proved", "note": "Over the reals; a centre within the tolerance of the origin is ignored. Merging of midpoints closer than the tolerance is part of the model."},
 "C182": {"status": "partial", "note": "REFUTED: the hash key is the coordinates printed with two decimals, so (0.004999,0,0) and (0.005001,0,0), 2e-6 apart, have different keys and are both stored."},
 "C183": {"status": "proved", "note": "Over the reals."},
 "C184": {"status": "partial", "note": "REFUTED: for every d > 0 two vertices are farther apart than d (the circumscribed diameter is 1.07*d), and all vertices lie at or above the given centre's z."},
 "C185": {"status": "proved", "note": ""},
 "C186": {"status": "partial", "note": "REFUTED: the walls are dropped whenever chord times distance is below the tolerance (an area compared with a length tolerance): a square of side 0.001 extruded by 0.001 has no wall, is not a valid solid and volumeof raises ValueError."},
 "C187": {"status": "proved", "note": ""},
 "C188": {"status": "partial", "note": "REFUTED: it consists of the band alone, without lids: for all loops as in C187 issolidclosed is False and volumeof raises ValueError."},
 "C189": {"status": "proved", "note": ""},
 "C190": {"status": "partial", "note": "REFUTED: the slot is chosen by emptiness, so the construction becomes the material (every primitive calls solid(surfaces, [], ['procedure', call])) and surface(v, n, f, [], holes) raises TypeError."},
 "C191": {"status": "proved", "note": "Dictionaries are objects in a heap, so sharing is modelled. Bounding boxes and sampled polylines are not modelled."},
 "C192": {"status": "proved", "note": "Reals for floats."},
 "C193": {"status": "proved", "note": ""},
 "C194": {"status": "partial", "note": "REFUTED: _serialize_surface writes vertices, normals and faces only, so every loaded surface has empty boundary and holes (proved); extruding a loaded surface then makes no side walls."},
 "C195": {"status": "partial", "note": "REFUTED: The second list, which solid() documents as material, is read as a list of voids: ['steel'] comes back as [[]] (proved), a number raises TypeError (proved), and the third list leaves no trace in the document (proved). Since the primitives' construction record lands in the second list (C190), every saved primitive comes back with two empty voids."},
 "C196": {"status": "partial", "note": "REFUTED: If there is a solid, sketches and stand-alone surfaces are dropped; if there is a sketch, surfaces are; and a surface and its translated copy, which has a copy of its metadata and so its entityId, are saved as one entry (setdefault): the second is lost. Witnesses proved."},
 "C197": {"status": "partial", "note": "REFUTED: Lines lose their z coordinate, reversed arcs come back forwards (arc() overwrites the orientation it is given), points vanish, and a list with a nested list of two lines raises TypeError. Proved."},
 "C198": {"status": "partial", "note": "REFUTED: A solid's layer is written into its surfaces on the first save; when the solid moves to another layer and is saved again its surfaces stay on the old one. A surface used by two solids gets a new id at the second use, and the first entry, which shares the metadata dictionary, no longer has the id of its metadata. Witnesses proved."},
 "C199": {"status": "proved", "note": ""},
 "C200": {"status": "partial", "note": "REFUTED: the comparison is strict, so a zero tolerance never passes although the other types accept it."},
 "C201": {"status": "partial", "note": "REFUTED: a zero axis gives NaN, min(1.0, NaN) is 1.0, and every datum passes."},
 "C202": {"status": "partial", "note": "REFUTED: the radius is required but never used: any line perpendicular to the radial direction passes, whatever its distance."},
 "C203": {"status": "partial", "note": "REFUTED: ON_CIRCLE, IN_PLANE, MIN_DISTANCE and NO_INTERFERENCE are not implemented and always fail."},
 "C204": {"status": "proved", "note": ""},
 "C205": {"status": "proved", "note": ""},
 "C206": {"status": "partial", "note": "REFUTED: velocity and effort violations are listed but never change satisfied or error."},
 "C207": {"status": "proved", "note": "metadata is modelled as a dictionary of numbers; axis lists as lists of numbers"},
 "C208": {"status": "partial", "note": "REFUTED: it is -1 exactly for GEAR, RACK_PINION and CAM."},
 "C209": {"status": "proved", "note": ""},
 "C210": {"status": "partial", "note": "REFUTED: it moves 1.0, and a screw with a pitch ignores coupling_reverse, coupling_ratio and coupling_offset."},
 "C211": {"status": "proved", "note": "For the remaining mixed pairs (such as point and axis) only the distance of the origins is compared."},
 "C212": {"status": "partial", "note": "REFUTED: the distance is measured along the first normal only; two planes 1 degree apart are coincident one way round and not the other."},
 "C213": {"status": "proved", "note": ""},
 "C214": {"status": "partial", "note": "REFUTED: the offset itself is counted as the error (the chord 2 r sin(offset/2)): the documented 45 degree example, and a rotation by exactly one hole spacing, are refused."},
 "C215": {"status": "proved", "note": ""},
 "C216": {"status": "proved", "note": ""},
 "C217": {"status": "partial", "note": "REFUTED: with a yapCAD Matrix as transform it raises AttributeError (Matrix has no copy method) after the part was added; the part has no transform, so its datums raise KeyError and its name is taken."},
 "C218": {"status": "proved", "note": ""},
 "C219": {"status": "partial", "note": "REFUTED: Matrix(ndarray) is the identity, so arrays, and every imported transform, move nothing."},
 "C220": {"status": "partial", "note": "REFUTED: it reads cr.message, which ConstraintResult does not have, and raises AttributeError instead."},
 "C221": {"status": "partial", "note": "REFUTED: constraints of the same name overwrite each other's result."},
 "C222": {"status": "proved", "note": ""},
 "C223": {"status": "proved", "note": ""},
 "C224": {"status": "partial", "note": "REFUTED: any other mate type raises AttributeError: the code names MateType.FLUSH, which does not exist."},
 "C225": {"status": "partial", "note": "REFUTED: earlier parts have already been updated when a later one is faulty; unknown names are skipped silently."},
 "C226": {"status": "proved", "note": ""},
 "C227": {"status": "proved", "note": ""},
 "C228": {"status": "proved", "note": ""},
 "C229": {"status": "partial", "note": "REFUTED: directions (0,0,1) and (1,0,100), 0.57 degrees apart, are reported solved with the identity transform (the cut-off is cosine 0.9999, about 0.81 degrees)."},
 "C230": {"status": "proved", "note": ""},
 "C231": {"status": "proved", "note": ""},
 "C232": {"status": "partial", "note": "REFUTED: the second datum is not looked at: with its origin 5 above its part's origin an offset of 2 leaves it 7 away."},
 "C233": {"status": "proved", "note": ""},
 "C234": {"status": "partial", "note": "REFUTED: the second datum is not looked at: two parallel planes stay parallel whatever the angle."},
 "C235": {"status": "partial", "note": "REFUTED: frames have no normal, so +Z is used for both: the solved frames end up perpendicular."},
 "C236": {"status": "proved", "note": ""},
 "C237": {"status": "partial", "note": "REFUTED: for every motion they send it to the opposite axis (the matrices are transposed)."},
 "C238": {"status": "partial", "note": "REFUTED: with '-Z' the part is turned about its own origin, so a COINCIDENT datum away from that origin no longer touches."},
 "C239": {"status": "proved", "note": ""},
 "C240": {"status": "partial", "note": "REFUTED: a second call with another parent returns the first parent's answer: the cache key is the mate's name and the axis."},
 "C241": {"status": "partial", "note": "REFUTED: after a datum was moved in the registry the old transform is returned."},
 "C242": {"status": "proved", "note": ""},
 "C243": {"status": "partial", "note": "REFUTED: two children of the same base: the second is placed relative to the first child."},
 "C244": {"status": "proved", "note": ""},
 "C245": {"status": "proved", "note": ""},
 "C246": {"status": "proved", "note": ""},
 "C247": {"status": "proved", "note": ""},
 "C248": {"status": "proved", "note": ""},
 "C249": {"status": "partial", "note": "REFUTED: it never does: MateType has no member ALIGNED, so line 184 raises AttributeError for every constraint (and validate, which catches only KeyError and ValueError, lets it through)."},
 "C250": {"status": "proved", "note": ""},
 "C251": {"status": "proved", "note": ""},
 "C252": {"status": "proved", "note": ""},
 "C253": {"status": "proved", "note": ""},
 "C254": {"status": "partial", "note": "REFUTED: at t = 0 it raises ValueError for every path (the sub-path from 0 to 0 is refused)."},
 "C255": {"status": "partial", "note": "REFUTED: on segments of lengths 1 and 3 the length 1 becomes the parameter 1/4, whose length is 1/2: one conversion is by arc length, the other by segment."},
 "C256": {"status": "proved", "note": ""},
 "C257": {"status": "partial", "note": "REFUTED: they are clamped: t = 2 gives the end point, and the sub-path from 1 to 2 is empty, without error."},
 "C258": {"status": "proved", "note": ""},
 "C259": {"status": "proved", "note": ""},
 "C260": {"status": "partial", "note": "REFUTED: the entry of a segment is copied before its successor exists, so it names the predecessor only: for one cut the first segment's entry is empty although it mates with the second."},
 "C261": {"status": "partial", "note": "REFUTED: cuts at 0.3 ('b') and 0.6 ('none'): the last segment is 'female' though its only joint has a separate connector."},
 "C262": {"status": "partial", "note": "REFUTED: it is never read: the result is the same whatever it is, and the length is always three times the larger side of the profile."},
 "C263": {"status": "partial", "note": "REFUTED: the id has the cut parameter in whole percent: cuts at 0.101 and 0.105 both give e_conn_10."},
 "C264": {"status": "proved", "note": ""},
 "C265": {"status": "proved", "note": ""},
 "C266": {"status": "partial", "note": "REFUTED: on straight segments of lengths 1 and 9 with maximum 5 the last piece is 6 long: the parameter is not proportional to length."},
 "C267": {"status": "proved", "note": ""},
 "C268": {"status": "proved", "note": ""},
 "C269": {"status": "partial", "note": "REFUTED: on straight segments of lengths 1 and 9 the connector of length 1 for the cut at x = 1 runs from x = 0.1 to 0.3: a fifth of the length, short of the cut."},
 "C270": {"status": "proved", "note": ""},
 "C271": {"status": "proved", "note": ""},
 "C272": {"status": "partial", "note": "REFUTED: with exact half spaces a square ring cut at 3/4 loses every point outside its first side (x + y > 1): a piece longer than half a turn is cut by two planes that overlap on the far side."},
 "C273": {"status": "proved", "note": ""},
 "C274": {"status": "partial", "note": "REFUTED: when no place is far enough the evenly spaced cuts are returned silently, possibly through a hole (circumference 100, hole at 180 degrees, distance 60)."},
 "C275": {"status": "partial", "note": "REFUTED: circumference 100, maximum 50, hole at 180 degrees, distance 5: the cut moves to 0.5505 and a piece is 55.05 long."},
 "C276": {"status": "proved", "note": ""},
 "C277": {"status": "partial", "note": "REFUTED: the segment (0,0)-(1,0) and the unit circle: the reported point is (-1,0), which is not on the segment, and (1,0), which is on both, is not reported."},
 "C278": {"status": "partial", "note": "REFUTED: a line of length 20 half an epsilon outside the unit circle raises ValueError; a line of length 1e-4 that is 0.99 from the centre reports one point, 2000 epsilon off the circle."},
 "C279": {"status": "proved", "note": ""},
 "C280": {"status": "partial", "note": "REFUTED: for the arc 180-360 the end point's parameter is -1; segmentarc(circle, 0, 1) is an arc of zero extent at the start point."},
 "C281": {"status": "proved", "note": ""},
 "C282": {"status": "partial", "note": "REFUTED: circles of radius 5/4 with centres 3/2 apart meet in two points, one is reported; the second arc's parameter is computed with the first arc's end: (3,4) on the arc 280-100 gets -19/18."},
 "C283": {"status": "proved", "note": ""},
 "C284": {"status": "partial", "note": "REFUTED: it raises ValueError for every such pair."},
 "C285": {"status": "proved", "note": ""},
 "C286": {"status": "partial", "note": "REFUTED: a point half the radius from the centre is accepted: the whole sector counts."},
 "C287": {"status": "proved", "note": ""},
 "C288": {"status": "partial", "note": "REFUTED: A point at the start (u=0) or end (u=1) makes sample raise ZeroDivisionError; the empty list samples to None."},
 "C289": {"status": "proved", "note": ""},
 "C290": {"status": "partial", "note": "REFUTED: The slice then contains an element of length 0 at its end (start), so sampling the slice at 1 (0) raises ZeroDivisionError."},
 "C291": {"status": "proved", "note": ""},
 "C292": {"status": "partial", "note": "REFUTED: segment(polygon,0,1) is two equal points; on an open polyline u2 < u1 always raises TypeError (deepcopy(a).reverse() is None); on a polygon with u1 > 1-epsilon the call recurses for ever."},
 "C293": {"status": "proved", "note": ""},
 "C294": {"status": "partial", "note": "REFUTED: The start point is reported as not on it (parameter 0.0 == False), and points on the extension of the first or last edge are reported as on it."},
 "C295": {"status": "proved", "note": ""},
 "C296": {"status": "partial", "note": "REFUTED: A polyline of three points is never reported to intersect anything (len(lines) > 2); intersectXY of two polylines with params=True returns one list twice, with the parameters of both taking turns, and the first ones are not advanced by the edges passed."},
 "C297": {"status": "proved", "note": ""},
 "C298": {"status": "proved", "note": ""},
 "C299": {"status": "partial", "note": "REFUTED: On every cone, at every point, cone_surface_normal (documented \"outward-pointing\") points towards the axis and is opposite to d/du x d/dv."},
 "C300": {"status": "proved", "note": ""},
 "C301": {"status": "proved", "note": ""},
 "C302": {"status": "partial", "note": "REFUTED: At the end of a clamped knot vector of degree >= 1 all basis functions vanish (0/0 terms are dropped), so every point of the far edge evaluates to the first control point; a bilinear patch at (1,1) gives its first corner, and tessellating it folds the last row and column back there."},
 "C303": {"status": "proved", "note": ""},
 "C304": {"status": "partial", "note": "REFUTED: transform_topology_graph leaves the reference direction of cylinders, cones and tori: after a quarter turn a unit cylinder evaluates to points of its axis. Read back, a turned plane gets new in-plane axes, so a turned rectangle is not turned; scaling by 2 does not change the parameter ranges, so a scaled cylinder keeps its height."},
 "C305": {"status": "proved", "note": ""},
 "C306": {"status": "proved", "note": ""},
 "C307": {"status": "proved", "note": ""},
 "C308": {"status": "partial", "note": "REFUTED: A single face that uses each edge twice is a closed shell; so is a shell without faces or whose faces are not in the graph (add_shell accepts it with closed=True); a shell refused with ShellClosureError stays in the graph, says closed=True, and its faces name it as their shell."},
 "C309": {"status": "proved", "note": ""},
 "C310": {"status": "partial", "note": "REFUTED: An edge added before its vertices is never listed at them; an edge added twice is listed twice; the face of a seam edge is listed twice."},
 "C311": {"status": "proved", "note": ""},
 "C312": {"status": "partial", "note": "REFUTED: Only the centre of a void's bounding box is tested: with exact tests, two concentric boxes are accepted with the outer shell strictly inside its void. A refused solid stays in the graph and its shells name it."},
 "C313": {"status": "proved", "note": ""},
 "C314": {"status": "partial", "note": "REFUTED: vertex_edges and edge_faces are empty for everything; every edge has sense True and the default tolerance; every shell is \"outer\", voids included; a graph with an arc edge without bulge and centre cannot be read back (ValueError)."},
 "C315": {"status": "proved", "note": ""},
 "C316": {"status": "partial", "note": "REFUTED: An arc given by its bulge misses its ends unless 2 bulge^2 = 1 (the centre is computed from the middle of the arc by radius - height). The orientation of a centre arc is ignored (arc() overwrites it): the clockwise quarter from (0,1) to (1,0) about the origin passes (-1,0). Circle, B-spline and NURBS edges are drawn as chords."},
 "C317": {"status": "proved", "note": ""},
 "C318": {"status": "partial", "note": "REFUTED: TopologyGraph.transform leaves circle centres, B-spline control points and all surfaces where they were; scaling a solid leaves the radii of circle edges; mirroring leaves the bulge, so an arc mirrored in the line through its ends does not change sides."},
 "C319": {"status": "proved", "note": ""},
 "C320": {"status": "proved", "note": ""},
 "C321": {"status": "partial", "note": "REFUTED: the native back end passes over a criterion whose metric is missing, whose limit is written limit_mm or whose comparison is unknown; calculix and fenics pass any value for \"==\" and \"~=\", which the schema allows; fenics stops at the first missing metric, so the same criteria in another order are failed or pending"},
 "C322": {"status": "proved", "note": ""},
 "C323": {"status": "proved", "note": ""},
 "C324": {"status": "partial", "note": "REFUTED: an equality that does not hold fails the analysis but is not among the failed criteria; a metric found only under the name with dots fails the analysis while its result has neither value nor passed"},
 "C325": {"status": "proved", "note": ""},
 "C326": {"status": "proved", "note": ""},
 "C327": {"status": "proved", "note": ""},
 "C328": {"status": "partial", "note": "REFUTED: a run without metrics (as after an error) keeps the metrics of an earlier run in the entry, under the new status and timestamp; so do artifacts, notes and summary"},
 "C329": {"status": "proved", "note": ""},
 "C330": {"status": "partial", "note": "REFUTED: a surface without faces, a single quadrilateral, any triangle listed twice and a tetrahedron with one face turned round are all accepted without a warning"},
 "C331": {"status": "proved", "note": ""},
 "C332": {"status": "partial", "note": "REFUTED: a closed tetrahedron with every side once in each direction is rejected (as is any closed solid that has a face looking away from its first one), and two triangles that run along their common side in the same direction are accepted"},
 "C333": {"status": "proved", "note": "Over the reals; attached BREP data (OCC) left out."},
 "C334": {"status": "proved", "note": "A displacement below the tolerance is ignored by translatesurface and leaves the centroid where it was."},
 "C335": {"status": "proved", "note": ""},
 "C336": {"status": "proved", "note": ""},
 "C337": {"status": "proved", "note": ""},
 "C338": {"status": "proved", "note": ""},
 "C339": {"status": "proved", "note": ""},
 "C340": {"status": "proved", "note": ""},
 "C341": {"status": "proved", "note": ""},
 "C342": {"status": "partial", "note": "REFUTED: whatever the units, the number is the one in cubic millimetres (only the key changes); the entities are read and ignored, and with more than one solid in the package all are measured even when aggregate is false."},
 "C343": {"status": "proved", "note": "Bolt patterns: finite real numbers."},
 "C344": {"status": "proved", "note": ""},
 "C345": {"status": "proved", "note": ""},
 "C346": {"status": "proved", "note": ""},
 "C347": {"status": "partial", "note": "REFUTED: a load case read with position null cannot be written (TypeError); half a bolt is accepted and written as no bolts, which is refused on reading; a pattern registered for (child, parent) of a mate, or for a pair without a mate, is silently dropped from the export."},
 "C348": {"status": "proved", "note": "Spans and RangeExpr.step are not modelled."},
 "C349": {"status": "proved", "note": "Places entered: see C351 for those that are not."},
 "C350": {"status": "partial", "note": "REFUTED: named arguments of a method call and the elif branches of an if expression are dropped, the final expression of a block is dropped, and every function call raises AttributeError (the visit method reads a field the node does not have)."},
 "C351": {"status": "partial", "note": "REFUTED: conditional expressions, while and if statements, assignment targets, match arms and blocks of if expressions are returned as they are."},
 "C352": {"status": "partial", "note": "REFUTED: for every module, even an empty one, and whatever visit_literal and visit_identifier do, transform raises TypeError: a command body is a Block, which cannot be iterated over, and Module has no commands argument; so does every pipeline that reaches such a transform."},
 "C353": {"status": "proved", "note": ""},
 "C354": {"status": "partial", "note": "REFUTED: the constructor keeps a non-empty list it is given: add then changes the list of the caller and every other pipeline made from it (but not if the list was empty)."},
 "C355": {"status": "proved", "note": "pathlib is a parameter: str(Path(s)) names itself again; of numbers only whether they are zero is modelled."},
 "C356": {"status": "proved", "note": "str.lower is a parameter."},
 "C357": {"status": "partial", "note": "REFUTED: the name is lower-cased but the keys are not: a key with an upper-case letter (\"Gold\") always yields the default colour."},
 "C358": {"status": "partial", "note": "REFUTED: sizes, colours and the palette of the caller's dictionary are replaced by tuples in place, even when the call then fails."},
 "C359": {"status": "proved", "note": "str.lower and issubclass are parameters."}}

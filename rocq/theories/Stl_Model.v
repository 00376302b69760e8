(** Model of yapcad/io/stl.py and mesh.py: writing and reading STL files.
    Bytes are integers 0..255, texts lists of code points.  [F] is the type of Python floats;
    packing one into four bytes ([pack], None: OverflowError), unpacking four bytes, formatting
    with '.6e' and parsing are parameters.  Not modelled: I/O errors (a failed write leaves a
    partial file), BREP-only solids. *)
From Coq Require Import ZArith List Bool.
From Verif Require Import Dict.
Import ListNotations.
Open Scope Z_scope.
Open Scope list_scope.

Section Stl.
  Context {F : Type}.
  Definition v3 := (F * F * F)%type.
  (** geometry_utils.py:14-21 Triangle *)
  Record triangle := Triangle { normal : v3; v0 : v3; v1 : v3; v2 : v3 }.
  Variables (pack : F -> option (list Z)) (unpack : list Z -> F).

  (** stl.py:44-47 the header: name[:80].encode('ascii', errors='replace').ljust(80, b' ') *)
  Definition ascii (c : Z) : Z := if c <? 128 then c else 63.
  Definition header (name : list Z) : list Z :=
    let h := map ascii (firstn 80 name) in h ++ repeat 32 (80 - length h)%nat.
  (** struct '<I' *)
  Definition le32 (n : Z) : list Z := [n mod 256; n / 256 mod 256; n / 65536 mod 256; n / 16777216 mod 256].
  Definition un32 (b : list Z) : Z := match b with [a; b; c; d] => a + 256 * b + 65536 * c + 16777216 * d | _ => 0 end.
  (** struct '<12fH', stl.py:50-58 *)
  Definition bind {A B} (o : option A) (f : A -> option B) : option B := match o with Some a => f a | None => None end.
  Definition pack3 (v : v3) : option (list Z) := let '(x, y, z) := v in
    bind (pack x) (fun a => bind (pack y) (fun b => bind (pack z) (fun c => Some (a ++ b ++ c)))).
  Definition record (t : triangle) : option (list Z) :=
    bind (pack3 (normal t)) (fun n => bind (pack3 (v0 t)) (fun a => bind (pack3 (v1 t)) (fun b => bind (pack3 (v2 t)) (fun c => Some (n ++ a ++ b ++ c ++ [0; 0]))))).
  Fixpoint records (ts : list triangle) : option (list Z) :=
    match ts with [] => Some [] | t :: ts => bind (record t) (fun r => bind (records ts) (fun rs => Some (r ++ rs))) end.
  (** stl.py:35-62 _write_binary; None: struct.error or OverflowError *)
  Definition write_binary (ts : list triangle) (name : list Z) : option (list Z) :=
    if Z.of_nat (length ts) <? 4294967296 then bind (records ts) (fun rs => Some (header name ++ le32 (Z.of_nat (length ts)) ++ rs)) else None.

  (** Python str.strip, str.lower, str.startswith on ASCII *)
  Definition space (c : Z) : bool := ((9 <=? c) && (c <=? 13)) || ((28 <=? c) && (c <=? 32)).
  Fixpoint lstrip (l : list Z) : list Z := match l with c :: r => if space c then lstrip r else l | [] => [] end.
  Definition strip (l : list Z) : list Z := rev (lstrip (rev (lstrip l))).
  Definition lower (c : Z) : Z := if (65 <=? c) && (c <=? 90) then c + 32 else c.
  Fixpoint starts (p l : list Z) : bool := match p, l with [], _ => true | a :: p, b :: l => (a =? b) && starts p l | _, _ => false end.
  Fixpoint contains (p l : list Z) : bool := starts p l || match l with [] => false | _ :: r => contains p r end.
  Definition solid_word : list Z := [115; 111; 108; 105; 100].
  Definition facet_word : list Z := [102; 97; 99; 101; 116].
  Definition vertex_word : list Z := [118; 101; 114; 116; 101; 120].
  (** stl.py:96-126 _is_binary_stl (decode('ascii', errors='ignore') drops the other bytes) *)
  Definition is_binary (data : list Z) : bool :=
    if (length data <? 84)%nat then false else
    if starts solid_word (map lower (strip (filter (fun c => c <? 128) (firstn 80 data)))) then
      if Z.of_nat (length data) =? 84 + un32 (firstn 4 (skipn 80 data)) * 50 then
        let rest := firstn 116 (skipn 84 data) in negb (contains facet_word rest || contains vertex_word rest)
      else false
    else true.
  (** stl.py:129-150 _parse_binary_stl, with the bytes from the offset on *)
  Definition unpack3 (b : list Z) : v3 := (unpack (firstn 4 b), unpack (firstn 4 (skipn 4 b)), unpack (firstn 4 (skipn 8 b))).
  Definition unrecord (b : list Z) : triangle := Triangle (unpack3 b) (unpack3 (skipn 12 b)) (unpack3 (skipn 24 b)) (unpack3 (skipn 36 b)).
  Fixpoint parse_records (n : nat) (rest : list Z) : list triangle :=
    match n with
    | O => []
    | S n => if (length rest <? 50)%nat then [] else unrecord (firstn 50 rest) :: parse_records n (skipn 50 rest)
    end.
  Definition parse_binary (data : list Z) : list triangle := parse_records (Z.to_nat (un32 (firstn 4 (skipn 80 data)))) (skipn 84 data).

  (** ** ASCII *)
  Variables (fmt : F -> list Z) (number : list Z -> F).          (* '.6e', float() *)
  Fixpoint text (l : list (list Z)) : list Z := match l with [] => [] | a :: r => a ++ text r end.
  Definition newline : list Z := [10].
  Definition spaces (n : nat) : list Z := repeat 32 n.
  Definition word (l : list Z) : list Z := l.
  Definition normal_word : list Z := [110; 111; 114; 109; 97; 108].
  Definition outer_word : list Z := [111; 117; 116; 101; 114].
  Definition loop_word : list Z := [108; 111; 111; 112].
  Definition endloop_word : list Z := [101; 110; 100; 108; 111; 111; 112].
  Definition endfacet_word : list Z := [101; 110; 100; 102; 97; 99; 101; 116].
  Definition endsolid_word : list Z := [101; 110; 100; 115; 111; 108; 105; 100].
  (** stl.py:65-89 _write_ascii (to a text stream) *)
  Definition numbers (v : v3) : list Z := let '(x, y, z) := v in fmt x ++ [32] ++ fmt y ++ [32] ++ fmt z.
  Definition vertex_line (v : v3) : list Z := spaces 6 ++ vertex_word ++ [32] ++ numbers v ++ newline.
  Definition facet_text (t : triangle) : list Z :=
    spaces 2 ++ facet_word ++ [32] ++ normal_word ++ [32] ++ numbers (normal t) ++ newline ++
    spaces 4 ++ outer_word ++ [32] ++ loop_word ++ newline ++
    vertex_line (v0 t) ++ vertex_line (v1 t) ++ vertex_line (v2 t) ++
    spaces 4 ++ endloop_word ++ newline ++ spaces 2 ++ endfacet_word ++ newline.
  Definition write_ascii (ts : list triangle) (name : list Z) : list Z :=
    solid_word ++ [32] ++ name ++ newline ++ text (map facet_text ts) ++ endsolid_word ++ [32] ++ name ++ newline.

  (** stl.py:153-180 _parse_ascii_stl: the regular expression alternates words, white space and
      numbers; these use disjoint characters, so it matches in one way at most.
      [blank]: \s, [digit]: \d of Python's re (Unicode), both parameters beyond ASCII. *)
  Variables blank digit : Z -> bool.
  Definition numeric (c : Z) : bool := (c =? 101) || (c =? 69) || digit c || (c =? 46) || (c =? 43) || (c =? 45).
  Inductive item := Word (w : list Z) | Blanks | Number.
  (** longest prefix of characters in a class *)
  Fixpoint span (f : Z -> bool) (l : list Z) : list Z * list Z :=
    match l with c :: r => if f c then let (a, b) := span f r in (c :: a, b) else ([], l) | [] => ([], []) end.
  (** re.IGNORECASE on the ASCII words used (none of their letters has a non-ASCII variant) *)
  Fixpoint word_at (w l : list Z) : option (list Z) :=
    match w, l with [], _ => Some l | a :: w, c :: r => if a =? lower c then word_at w r else None | _, _ => None end.
  Fixpoint match_items (is : list item) (l : list Z) (groups : list (list Z)) : option (list (list Z) * list Z) :=
    match is with
    | [] => Some (rev groups, l)
    | Word w :: is => match word_at w l with Some r => match_items is r groups | None => None end
    | Blanks :: is => let (a, r) := span blank l in match a with [] => None | _ => match_items is r groups end
    | Number :: is => let (a, r) := span numeric l in match a with [] => None | _ => match_items is r (a :: groups) end
    end.
  Definition vertex_items : list item := [Word vertex_word; Blanks; Number; Blanks; Number; Blanks; Number; Blanks].
  Definition facet_items : list item :=
    [Word facet_word; Blanks; Word normal_word; Blanks; Number; Blanks; Number; Blanks; Number; Blanks; Word outer_word; Blanks; Word loop_word; Blanks] ++
    vertex_items ++ vertex_items ++ vertex_items ++ [Word endloop_word; Blanks; Word endfacet_word].
  Definition of_groups (g : list (list Z)) : option triangle :=
    match map number g with
    | [a; b; c; d; e; f; g; h; i; j; k; l] => Some (Triangle (a, b, c) (d, e, f) (g, h, i) (j, k, l))
    | _ => None
    end.
  (** finditer, with fuel: every step shortens the text *)
  Fixpoint find_facets (fuel : nat) (l : list Z) : list triangle :=
    match fuel with
    | O => []
    | S fuel =>
      match l with
      | [] => []
      | _ :: r =>
        match match_items facet_items l [] with
        | Some (g, rest) => match of_groups g with Some t => t :: find_facets fuel rest | None => find_facets fuel rest end
        | None => find_facets fuel r
        end
      end
    end.
  Definition parse_ascii (l : list Z) : list triangle := find_facets (S (length l)) l.

  (** ** stl.py:189-256 _triangles_to_surface.  [key]: _vertex_key; [average]: of normals *)
  Context {K : Type}.
  Variables (keq : K -> K -> bool) (key : v3 -> K) (average : list v3 -> v3).
  Record surface := Surface { vertices : list v3; normals : list v3; faces : list (list nat) }.
  Definition builder := (list (K * nat) * list v3 * list (K * list v3))%type.     (* vertex_map, vertices, vertex_normals *)
  Definition add_vertex (n v : v3) (b : builder) : builder * nat :=
    let '(vm, vs, ns) := b in
    let k := key v in
    let '(vm, vs, ns) := match dget keq k vm with Some _ => (vm, vs, ns) | None => (dset keq k (length vs) vm, vs ++ [v], dset keq k [] ns) end in
    let ns := dset keq k ((match dget keq k ns with Some l => l | None => [] end) ++ [n]) ns in
    (vm, vs, ns, match dget keq k vm with Some i => i | None => O end).
  Definition add_triangle (t : triangle) (b : builder) : builder * list nat :=
    let (b, i) := add_vertex (normal t) (v0 t) b in
    let (b, j) := add_vertex (normal t) (v1 t) b in
    let (b, k) := add_vertex (normal t) (v2 t) b in (b, [i; j; k]).
  Fixpoint add_all (ts : list triangle) (b : builder) : builder * list (list nat) :=
    match ts with [] => (b, []) | t :: ts => let (b, f) := add_triangle t b in let (b, fs) := add_all ts b in (b, f :: fs) end.
  (** vertex_map grows in the order of its values, so sorting keeps the order *)
  Definition merged (ts : list triangle) : surface :=
    let '(vm, vs, ns, fs) := add_all ts ([], [], []) in
    Surface vs (map (fun kv => average (match dget keq (fst kv) ns with Some l => l | None => [] end)) vm) fs.
  Definition separate (ts : list triangle) : surface :=
    Surface (flat_map (fun t => [v0 t; v1 t; v2 t]) ts) (flat_map (fun t => [normal t; normal t; normal t]) ts)
      (map (fun i => [3 * i; 3 * i + 1; 3 * i + 2]%nat) (seq 0 (length ts))).
  (** stl.py:259-302 read_stl on bytes; [decode]: UTF-8 with replacement; no surface: the empty solid *)
  Variable decode : list Z -> list Z.
  Definition read_triangles (data : list Z) : list triangle := if is_binary data then parse_binary data else parse_ascii (decode data).
  Definition read_stl (deduplicate : bool) (data : list Z) : option surface :=
    match read_triangles data with [] => None | ts => Some (if deduplicate then merged ts else separate ts) end.
End Stl.

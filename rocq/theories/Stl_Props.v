(** Properties of STL files. *)
From Coq Require Import Reals ZArith List Bool Lia Lra.
From Verif Require Import Dict Stl_Model Stl_Spec Stl_Proofs Stl_Proofs2.
Import ListNotations.
Open Scope Z_scope.
Open Scope list_scope.

(** C36.  Every list of fewer than 2^32 triangles whose numbers fit in a single can be written as a binary
    file of 84 + 50 n bytes; when the name does not begin with "solid", or no number exceeds 1e20, reading
    the file gives the same triangles in the same order, each number rounded to a single. *)
Theorem c36_roundtrip : forall (F : Type) (pack : F -> option (list Z)) (unpack : list Z -> F) number blank digit decode ts name,
  (forall f b, pack f = Some b -> length b = 4%nat) -> Forall (packable_triangle pack) ts -> Z.of_nat (length ts) < 4294967296 ->
  exists data, write_binary pack ts name = Some data /\ length data = (84 + 50 * length ts)%nat /\
    (named_solid name = false \/ Forall (moderate_triangle pack) ts ->
     read_triangles unpack number blank digit decode data = map (single_triangle pack unpack) ts).
Proof.
  intros F pack unpack number blank digit decode ts name PL P L. destruct (write_total pack ts name P L) as [data W]. exists data. split; [exact W|].
  destruct (binary_layout pack unpack PL ts name data W) as (Ld & B & R). split; [exact Ld|]. intros H. unfold read_triangles. rewrite B.
  replace (negb _) with true; [exact R|]. symmetry. apply negb_true_iff, andb_false_iff. destruct H as [H|H]; [left; exact H|right; apply moderate_unmarked; auto].
Qed.
Print Assumptions c36_roundtrip.
(** The surface read without merging has three vertices of its own for each triangle, exactly those read. *)
Theorem c36_separate : forall (F : Type) (ts : list (triangle (F := F))), let s := separate ts in
  length (vertices s) = (3 * length ts)%nat /\ length (normals s) = length (vertices s) /\
  Forall2 (fun f t => map (nth_error (vertices s)) f = [Some (v0 t); Some (v1 t); Some (v2 t)] /\
                      map (nth_error (normals s)) f = [Some (normal t); Some (normal t); Some (normal t)]) (faces s) ts.
Proof. intros F ts. exact (separate_ok ts). Qed.
Print Assumptions c36_separate.
(** The merged surface: no two vertices have one key, one normal for each vertex, and a face for each
    triangle, in order, whose corners have the keys of the triangle's corners, in order. *)
Theorem c36_merged : forall (F K : Type) (keq : K -> K -> bool) (key : v3 (F := F) -> K) average ts,
  (forall a b, keq a b = true <-> a = b) -> let s := merged keq key average ts in
  NoDup (map key (vertices s)) /\ length (normals s) = length (vertices s) /\ Forall2 (face_of key (vertices s)) (faces s) ts.
Proof. intros F K keq key average ts Q. exact (merged_ok keq Q key average ts). Qed.
Print Assumptions c36_merged.
(** A key is the nearest integer (either, at a tie) to 1e9 times the coordinate: equal keys mean that
    coordinates differ by at most the tolerance of 1e-9. *)
Theorem c36_tolerance : forall (round : R -> Z), (forall x, (Rabs (IZR (round x) - x) <= 1 / 2)%R) ->
  forall x y, round (x * 1000000000)%R = round (y * 1000000000)%R -> (Rabs (x - y) <= 1 / 1000000000)%R.
Proof.
  intros round H x y E. pose proof (H (x * 1000000000)%R) as Hx. pose proof (H (y * 1000000000)%R) as Hy. rewrite E in Hx. set (k := IZR (round (y * 1000000000)%R)) in *.
  unfold Rabs in *. destruct (Rcase_abs (k - x * 1000000000)), (Rcase_abs (k - y * 1000000000)), (Rcase_abs (x - y)); lra.
Qed.
Print Assumptions c36_tolerance.

(** Singles as bit patterns: packing keeps all 32 bits. *)
Definition bits (z : Z) : option (list Z) := if (0 <=? z) && (z <? 4294967296) then Some (le32 z) else None.
Lemma bits_length f b : bits f = Some b -> length b = 4%nat.
Proof. unfold bits. destruct (_ && _); [|discriminate]. intros H. assert (E : b = le32 f) by congruence. rewrite E. reflexivity. Qed.
(** a triangle with normal (0, 0, 1) and corners (0,0,0), (1,0,0), (0,1,0) *)
Definition unit_triangle : triangle (F := Z) := Triangle (0, 0, 1065353216) (0, 0, 0) (1065353216, 0, 0) (0, 1065353216, 0).
Lemma bits_moderate z : 0 <= z < 1600000000 -> moderate bits z.
Proof.
  intros H b E. left. unfold bits in E. destruct (_ && _); [|discriminate]. assert (Eb : b = le32 z) by congruence. rewrite Eb. cbn [le32 nth].
  assert (z / 16777216 < 97) by (apply Z.div_lt_upper_bound; lia). rewrite Z.mod_small; auto. split; [apply Z.div_pos; lia|lia].
Qed.
Example c36_nonvacuous : Forall (packable_triangle bits) [unit_triangle; unit_triangle] /\ Forall (moderate_triangle bits) [unit_triangle; unit_triangle] /\
  map (single_triangle bits un32) [unit_triangle; unit_triangle] = [unit_triangle; unit_triangle] /\
  exists data, write_binary bits [unit_triangle; unit_triangle] [115; 111; 108; 105; 100] = Some data /\ length data = 184%nat.
Proof.
  split; [|split; [|split]].
  - repeat (apply Forall_cons; [unfold packable_triangle, packable3, packable; cbn; repeat split; discriminate|]). constructor.
  - assert (M : moderate_triangle bits unit_triangle) by (unfold moderate_triangle, moderate3; cbn; repeat split; apply bits_moderate; lia). repeat (apply Forall_cons; [exact M|]). constructor.
  - reflexivity.
  - eexists. split; reflexivity.
Qed.

(** C128, refuted: with the name "solid" and a corner whose coordinates are the singles with the bytes
    "face" and "t" (6.7e22 and 1.6e-43), the file written is not recognised, and reads as empty. *)
Definition far_triangle : triangle (F := Z) := Triangle (0, 0, 1065353216) (1701011814, 116, 0) (1065353216, 0, 0) (0, 1065353216, 0).
Theorem c128_solid_refuted : Forall (packable_triangle bits) [far_triangle] /\ exists data, write_binary bits [far_triangle] [115; 111; 108; 105; 100] = Some data /\
  forall number decode, decode data = data -> read_triangles un32 number space (fun c => (48 <=? c) && (c <=? 57)) decode data = [].
Proof.
  split; [apply Forall_cons; [unfold packable_triangle, packable3, packable; cbn; repeat split; discriminate|constructor]|].
  eexists. split; [reflexivity|]. intros number decode D. unfold read_triangles. rewrite D. vm_compute. reflexivity.
Qed.
Print Assumptions c128_solid_refuted.

(** C129.  Every list of triangles with finite numbers written as text under a name without the word
    "facet" parses back to the same triangles in the same order, each number to the text's precision. *)
Theorem c129_ascii : forall (F : Type) (fmt : F -> list Z) (number : list Z -> F) blank digit ts name,
  ascii_classes blank digit -> Forall (decimal_triangle fmt) ts -> mentions_facet name = false ->
  parse_ascii number blank digit (write_ascii fmt ts name) = map (through fmt number) ts.
Proof. intros F fmt number blank digit ts name C. exact (ascii_roundtrip fmt number blank digit C ts name). Qed.
Print Assumptions c129_ascii.
(** And such a file of less than 7.5 GB without control characters is not taken for a binary one. *)
Theorem c129_not_binary : forall (F : Type) (fmt : F -> list Z) ts name, Forall (decimal_triangle fmt) ts -> Forall (fun c => 9 <= c) name ->
  Z.of_nat (length (write_ascii fmt ts name)) < 7579354134 -> is_binary (write_ascii fmt ts name) = false.
Proof.
  intros F fmt ts name D N L. apply text_not_binary; auto; [|unfold write_ascii; cbn [app]; eauto].
  assert (Dec : forall f, decimal fmt f -> Forall (fun c => 9 <= c) (fmt f)).
  { intros f [_ H]. rewrite forallb_forall in H. apply Forall_forall. intros c Hc. apply H in Hc. unfold decimal_char in Hc. rewrite !orb_true_iff, andb_true_iff, !Z.eqb_eq, !Z.leb_le in Hc. lia. }
  assert (W : forall w, forallb (fun c => 9 <=? c) w = true -> Forall (fun c => 9 <= c) w) by (intros w; rewrite forallb_forall, Forall_forall; intros Hw c Hc; apply Z.leb_le, Hw, Hc).
  assert (D3 : forall v, decimal3 fmt v -> Forall (fun c => 9 <= c) (numbers fmt v)).
  { intros [[x y] z] (X & Y & Z). unfold numbers. repeat (apply Forall_app; split; auto). }
  assert (Vl : forall v, decimal3 fmt v -> Forall (fun c => 9 <= c) (vertex_line fmt v)).
  { intros v Dv. unfold vertex_line. repeat (apply Forall_app; split; auto). }
  unfold write_ascii. repeat (apply Forall_app; split; auto). clear L N. induction D as [|t ts (Dn & D0 & D1 & D2) _ IH]; [constructor|]. cbn [map text]. apply Forall_app. split; [|exact IH].
  unfold facet_text. repeat (apply Forall_app; split; auto).
Qed.
Print Assumptions c129_not_binary.
(** '.6e' on small whole numbers, as an example *)
Definition digits (z : Z) : list Z := [48 + z; 46; 48; 48; 48; 48; 48; 48; 101; 43; 48; 48].
Definition digits_of (l : list Z) : Z := match l with c :: _ => c - 48 | [] => 0 end.
Example c129_nonvacuous : let t := Triangle (0, 0, 1) (0, 0, 0) (1, 0, 0) (0, 1, 0) in
  decimal_triangle digits t /\ mentions_facet [121; 97; 112] = false /\ ascii_classes space (fun c => (48 <=? c) && (c <=? 57)) /\
  parse_ascii digits_of space (fun c => (48 <=? c) && (c <=? 57)) (write_ascii digits [t; t] [121; 97; 112]) = [t; t].
Proof.
  cbv zeta. split; [|split; [|split]].
  - unfold decimal_triangle, decimal3, decimal. cbn. repeat split; discriminate.
  - reflexivity.
  - intros c _. split; reflexivity.
  - vm_compute. reflexivity.
Qed.
(** C132, refuted: a part named after the text format's own words is written with a triangle too many or
    too few.  The name here is a whole facet. *)
Definition evil : list Z := (* "facet normal 0 0 1 outer loop vertex 0 0 0 vertex 1 0 0 vertex 0 1 0 endloop endfacet" *)
  facet_word ++ [32] ++ normal_word ++ [32; 48; 32; 48; 32; 49; 32] ++ outer_word ++ [32] ++ loop_word ++ [32] ++ vertex_word ++ [32; 48; 32; 48; 32; 48; 32] ++
  vertex_word ++ [32; 49; 32; 48; 32; 48; 32] ++ vertex_word ++ [32; 48; 32; 49; 32; 48; 32] ++ endloop_word ++ [32] ++ endfacet_word.
Theorem c132_name_refuted : length (parse_ascii digits_of space (fun c => (48 <=? c) && (c <=? 57)) (write_ascii digits [] evil)) = 2%nat.
Proof. vm_compute. reflexivity. Qed.
Print Assumptions c132_name_refuted.

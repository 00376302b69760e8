(** The dodecahedron. *)
From Coq Require Import Reals List Bool ZArith Lra Lia Permutation.
From Verif Require Import Xform_Model Xform_Proofs Fig_Model Fig_Proofs Fig_Proofs2 Solid_Model Solid_Spec Solid_Proofs Solid_Proofs2 Solid_Proofs3 Solid_Proofs7
  Prim_Model Prim_Spec Prim_Lab Prim_Proofs Prim_Proofs2
  Sphere_Model Sphere_Spec Sphere_Proofs2 Sphere_Proofs3 Sphere_Proofs5.
Import ListNotations.
Open Scope R_scope.

Lemma golden_facts : golden * golden = golden + 1 /\ 1.61 < golden < 1.625 /\ 1 / golden = golden - 1.
Proof.
  assert (S5 : sqrt 5 * sqrt 5 = 5) by (apply sqrt_sqrt; lra). pose proof (sqrt_pos 5) as P. unfold golden.
  assert (2.22 < sqrt 5 < 2.25) by (split; nra).
  assert (E : (1 + sqrt 5) / 2 * ((1 + sqrt 5) / 2) = (1 + sqrt 5) / 2 + 1) by (unfold Rdiv; nra).
  split; [exact E|]. split; [lra|]. apply Rmult_eq_reg_r with ((1 + sqrt 5) / 2); [|lra].
  replace (1 / ((1 + sqrt 5) / 2) * ((1 + sqrt 5) / 2)) with 1 by (field; lra). lra.
Qed.
Definition raw (i : nat) : vec := let '(x, y, z) := nth i dodeca_coords (0, 0, 0) in point x y z.
Definition dscale (d : R) : R := d / (2 * golden).
Definition dangle : R := 31.72 * PI / 180.
Definition dz0 (d : R) : R := zs_min (dodeca_turned d).
Definition dmap (d : R) (c : vec) : aff :=
  let s := dscale d in
  mkaff (point (s * cos dangle) 0 (s * sin dangle)) (point 0 s 0) (point (- (s * sin dangle)) 0 (s * cos dangle)) (point (vx c) (vy c) (vz c - dz0 d)).
Definition dpos (d : R) (c : vec) (i : nat) : vec := act (dmap d c) (raw i).
Lemma dodeca_points_val d c : dodeca_points d c = map (dpos d c) (seq 0 20).
Proof.
  unfold dodeca_points. fold (dz0 d). unfold dodeca_turned at 1. rewrite map_map. unfold dodeca_coords at 1. cbn [map seq].
  fold (dscale d). fold dangle.
  assert (G : forall x y z, point (x * dscale d * cos dangle + z * dscale d * sin dangle + vx c) (y * dscale d + vy c)
      (- (x * dscale d) * sin dangle + z * dscale d * cos dangle - dz0 d + vz c) = act (dmap d c) (point x y z)).
  { intros x y z. unfold act, dmap, lin, add, dot, point. cbn [ra rb rc tr vx vy vz]. apply vec_ext; cbn [vx vy vz vw]; ring. }
  repeat (apply f_equal2; [apply G|]). reflexivity.
Qed.
Lemma dpos_w d c i : vw (dpos d c i) = 1.
Proof. reflexivity. Qed.
Lemma dmap_det d c : adet (dmap d c) = dscale d * dscale d * dscale d.
Proof.
  unfold adet, dmap, det3, point. cbn [ra rb rc vx vy vz]. pose proof (sin2_cos2 dangle) as S. unfold Rsqr in S.
  set (a := cos dangle) in *. set (b := sin dangle) in *. set (s := dscale d). replace (s * s * s) with (s * s * s * (b * b + a * a)) by (rewrite S; ring). ring.
Qed.
Definition fan (f : list nat) : list (ltri nat) :=
  let k i := nth i f 0%nat in [(k 0, k 1, k 2); (k 0, k 2, k 3); (k 0, k 3, k 4)]%nat.
Definition dodeca_ltris : list (ltri nat) := flat_map fan dodeca_faces.
Definition peqb (a b : nat * nat) : bool := Nat.eqb (fst a) (fst b) && Nat.eqb (snd a) (snd b).
Lemma peqb_spec a b : peqb a b = true <-> a = b.
Proof.
  destruct a as [a1 a2], b as [b1 b2]. unfold peqb. cbn [fst snd]. rewrite andb_true_iff, !Nat.eqb_eq.
  split; [intros [-> ->]; reflexivity|intros [= -> ->]; auto].
Qed.
Fixpoint pmem (a : nat * nat) (l : list (nat * nat)) : bool := match l with [] => false | b :: r => if peqb a b then true else pmem a r end.
Lemma pmem_spec a l : pmem a l = true <-> In a l.
Proof.
  induction l as [|b l IH]; cbn [pmem In]; [split; [discriminate|tauto]|]. destruct (peqb a b) eqn:E.
  - apply peqb_spec in E. subst. tauto.
  - rewrite IH. split; [auto|]. intros [->|H]; [|exact H]. rewrite (proj2 (peqb_spec a a) eq_refl) in E. discriminate.
Qed.
Fixpoint pnodup (l : list (nat * nat)) : bool := match l with [] => true | a :: r => negb (pmem a r) && pnodup r end.
Lemma pnodup_spec l : pnodup l = true -> NoDup l.
Proof.
  induction l as [|a l IH]; cbn [pnodup]; intros H; constructor; apply andb_true_iff in H as [H1 H2]; auto.
  intros Hi. apply pmem_spec in Hi. rewrite Hi in H1. discriminate.
Qed.
Lemma dodeca_nodup : NoDup (lall dodeca_ltris).
Proof. apply pnodup_spec. vm_compute. reflexivity. Qed.
Lemma dodeca_back e : In e (lall dodeca_ltris) -> In (snd e, fst e) (lall dodeca_ltris).
Proof.
  assert (H : forallb (fun e => pmem (snd e, fst e) (lall dodeca_ltris)) (lall dodeca_ltris) = true) by (vm_compute; reflexivity).
  rewrite forallb_forall in H. intros He. apply pmem_spec. apply H. exact He.
Qed.
Lemma dodeca_lorient : lorient dodeca_ltris.
Proof.
  unfold lorient. pose proof dodeca_nodup as N. pose proof dodeca_back as S. apply NoDup_Permutation; auto.
  - apply FinFun.Injective_map_NoDup; auto. intros [x y] [x' y'] E. unfold lback in E. cbn [fst snd] in E. congruence.
  - intros e. rewrite in_map_iff. split.
    + intros He. exists (snd e, fst e). split; [destruct e; reflexivity|apply S; exact He].
    + intros (e' & <- & He'). apply S. exact He'.
Qed.
Lemma dodeca_noloop a : ~ In (a, a) (lall dodeca_ltris).
Proof.
  assert (H : forallb (fun e => negb (Nat.eqb (fst e) (snd e))) (lall dodeca_ltris) = true) by (vm_compute; reflexivity).
  rewrite forallb_forall in H. intros Hi. specialize (H _ Hi). cbn [fst snd] in H. rewrite Nat.eqb_refl in H. discriminate.
Qed.
Lemma dodeca_label a : label dodeca_ltris a -> (a < 20)%nat.
Proof.
  assert (H : forallb (fun e => Nat.ltb (fst e) 20) (lall dodeca_ltris) = true) by (vm_compute; reflexivity).
  rewrite forallb_forall in H. intros [b Hi]. specialize (H _ Hi). apply Nat.ltb_lt in H. exact H.
Qed.

Lemma raw_volume : signed_volume (map (at_pos raw) dodeca_ltris) = 2 * (15 + 7 * sqrt 5) * ((golden - 1) * (golden - 1) * (golden - 1)).
Proof.
  unfold dodeca_ltris, dodeca_faces. cbn [flat_map fan app nth map at_pos].
  unfold signed_volume. cbn [Rsum]. unfold raw. cbn [nth dodeca_coords]. destruct golden_facts as (G & _ & I). rewrite I.
  unfold det3, point. cbn [vx vy vz].
  assert (S : sqrt 5 = 2 * golden - 1) by (unfold golden; field). rewrite S. set (g := golden) in *.
  assert (G3 : g * g * g = 2 * g + 1) by (rewrite G; lra). assert (G4 : g * g * g * g = 3 * g + 2) by (rewrite G3; lra).
  match goal with |- ?a = ?b => ring_simplify a; ring_simplify b end.
  nra.
Qed.
(** coordinates as u + v * golden, to decide distances by computation *)
Definition gnum := (Z * Z)%type.
Definition gval (x : gnum) : R := IZR (fst x) + IZR (snd x) * golden.
Definition gcoords : list (gnum * gnum * gnum) :=
  let a := (1, 0)%Z in let a' := (-1, 0)%Z in let b := (-1, 1)%Z in let b' := (1, -1)%Z in let c := (0, 1)%Z in let c' := (0, -1)%Z in let o := (0, 0)%Z in
  [(a,a,a);(a,a,a');(a,a',a);(a,a',a');(a',a,a);(a',a,a');(a',a',a);(a',a',a');
   (o,b,c);(o,b,c');(o,b',c);(o,b',c');(b,c,o);(b,c',o);(b',c,o);(b',c',o);(c,o,b);(c,o,b');(c',o,b);(c',o,b')].
Definition gpoint (t : gnum * gnum * gnum) : vec := let '(x, y, z) := t in point (gval x) (gval y) (gval z).
Definition gsq (x y : gnum) : gnum := let u := (fst x - fst y)%Z in let v := (snd x - snd y)%Z in (u * u + v * v, 2 * u * v + v * v)%Z.
Definition gdist (s t : gnum * gnum * gnum) : gnum :=
  let '(x, y, z) := s in let '(x', y', z') := t in
  (fst (gsq x x') + fst (gsq y y') + fst (gsq z z'), snd (gsq x x') + snd (gsq y y') + snd (gsq z z'))%Z.
Lemma gsq_val x y : (gval x - gval y) * (gval x - gval y) = gval (gsq x y).
Proof.
  destruct golden_facts as (G & _ & _). destruct x as [u v], y as [u' v']. unfold gval, gsq. cbn [fst snd]. rewrite !plus_IZR, !mult_IZR, !minus_IZR.
  set (p := IZR u - IZR u'). set (q := IZR v - IZR v').
  replace (IZR u + IZR v * golden - (IZR u' + IZR v' * golden)) with (p + q * golden) by (unfold p, q; ring).
  replace ((p + q * golden) * (p + q * golden)) with (p * p + 2 * p * q * golden + q * q * (golden * golden)) by ring. rewrite G. ring.
Qed.
Lemma gdist_val s t : len2 (sub (gpoint s) (gpoint t)) = gval (gdist s t).
Proof.
  destruct s as [[x y] z], t as [[x' y'] z']. unfold len2, dot, sub, gpoint, point, gdist. cbn [vx vy vz]. rewrite !gsq_val. unfold gval. cbn [fst snd]. rewrite !plus_IZR. ring.
Qed.
Lemma raw_g i : (i < 20)%nat -> raw i = gpoint (nth i gcoords ((0, 0), (0, 0), (0, 0))%Z).
Proof.
  intros Hi. destruct golden_facts as (_ & _ & I). assert (Ii : In i (seq 0 20)) by (apply in_seq; lia). clear Hi.
  cbn [seq In] in Ii. unfold raw, dodeca_coords. rewrite I.
  repeat (destruct Ii as [<-|Ii]; [cbn [nth gcoords]; unfold gpoint, gval, point; cbn [fst snd]; apply vec_ext; cbn [vx vy vz vw]; ring|]). destruct Ii.
Qed.
Definition gfar (x : gnum) : bool :=
  let a := (fst x - 8)%Z in let b := (snd x + 4)%Z in ((0 <=? a * 1000 + b * 1610) && (0 <=? a * 1000 + b * 1625))%Z.
Lemma gfar_spec x : gfar x = true -> 4 * (2 - golden) <= gval x.
Proof.
  unfold gfar. intros H. apply andb_true_iff in H as [H1 H2]. apply Z.leb_le in H1, H2. apply IZR_le in H1, H2.
  rewrite plus_IZR, !mult_IZR, minus_IZR, plus_IZR in H1, H2. destruct golden_facts as (_ & B & _). unfold gval.
  set (a := IZR (fst x)) in *. set (b := IZR (snd x)) in *. nra.
Qed.
Lemma raw_apart i j : (i < 20)%nat -> (j < 20)%nat -> i <> j -> 4 * (2 - golden) <= len2 (sub (raw i) (raw j)).
Proof.
  intros Hi Hj N. rewrite !raw_g, gdist_val by assumption. apply gfar_spec.
  assert (T : forallb (fun i => forallb (fun j => Nat.eqb i j || gfar (gdist (nth i gcoords ((0, 0), (0, 0), (0, 0))%Z) (nth j gcoords ((0, 0), (0, 0), (0, 0))%Z)))
     (seq 0 20)) (seq 0 20) = true) by (vm_compute; reflexivity).
  rewrite forallb_forall in T. specialize (T i ltac:(apply in_seq; lia)). rewrite forallb_forall in T. specialize (T j ltac:(apply in_seq; lia)).
  apply Nat.eqb_neq in N. rewrite N in T. exact T.
Qed.
Lemma dist_act d c p q : len2 (sub (act (dmap d c) p) (act (dmap d c) q)) = dscale d * dscale d * len2 (sub p q).
Proof.
  unfold len2, dot, sub, act, lin, dmap, add, dot, point. cbn [ra rb rc tr vx vy vz]. pose proof (sin2_cos2 dangle) as S. unfold Rsqr in S.
  set (a := cos dangle) in *. set (b := sin dangle) in *. set (s := dscale d). 
  match goal with |- ?l = ?r => replace r with (s * s * ((vx p - vx q) * (vx p - vx q) * (b * b + a * a) + (vy p - vy q) * (vy p - vy q) + (vz p - vz q) * (vz p - vz q) * (b * b + a * a))) by (rewrite S; ring) end.
  ring.
Qed.
Lemma dscale_pos d : 0 < d -> 0 < dscale d.
Proof. intros H. destruct golden_facts as (_ & B & _). unfold dscale. apply Rdiv_lt_0_compat; lra. Qed.
(** length of an edge *)
Definition dedge (d : R) : R := 2 * (golden - 1) * dscale d.
Lemma dpos_apart d c i j : 0 < d -> (i < 20)%nat -> (j < 20)%nat -> i = j \/ dedge d <= dist (dpos d c i) (dpos d c j).
Proof.
  intros Hd Hi Hj. destruct (Nat.eq_dec i j) as [->|N]; [left; reflexivity|right]. pose proof (raw_apart i j Hi Hj N) as A.
  destruct golden_facts as (G & B & _). pose proof (dscale_pos d Hd) as P.
  unfold dist. rewrite mag_len2. unfold dpos. rewrite dist_act. unfold dedge. rewrite <- (sqrt_square (2 * (golden - 1) * dscale d)) by (apply Rmult_le_pos; lra).
  apply sqrt_le_1_alt. replace (2 * (golden - 1) * dscale d * (2 * (golden - 1) * dscale d)) with (dscale d * dscale d * (4 * (golden * golden - 2 * golden + 1))) by ring.
  rewrite G. apply Rmult_le_compat_l; [nra|lra].
Qed.
Definition dodeca_surf (d : R) (c : vec) (f : list nat) : surf :=
  let vs := map (dpos d c) f in let n := face_normal vs in mksurf vs [n; n; n; n; n] [(0, 1, 2); (0, 2, 3); (0, 3, 4)]%Z [0; 1; 2; 3; 4]%Z [].
Definition dodeca_surfs (d : R) (c : vec) : solid := map (dodeca_surf d c) dodeca_faces.
Lemma at_points d c i : (i < 20)%nat -> at_ (dodeca_points d c) i = dpos d c i.
Proof.
  intros H. unfold at_. rewrite dodeca_points_val. rewrite (nth_indep _ origin (dpos d c 0)) by (rewrite map_length, seq_length; exact H).
  rewrite map_nth, seq_nth by exact H. reflexivity.
Qed.
Lemma faces_range f i : In f dodeca_faces -> In i f -> (i < 20)%nat.
Proof.
  assert (H : forallb (forallb (fun i => Nat.ltb i 20)) dodeca_faces = true) by (vm_compute; reflexivity).
  rewrite forallb_forall in H. intros Hf Hi. specialize (H f Hf). rewrite forallb_forall in H. apply Nat.ltb_lt. auto.
Qed.
Lemma faces_five f : In f dodeca_faces -> length f = 5%nat.
Proof.
  assert (H : forallb (fun f => Nat.eqb (length f) 5) dodeca_faces = true) by (vm_compute; reflexivity).
  rewrite forallb_forall in H. intros Hf. apply Nat.eqb_eq. auto.
Qed.
Lemma dodeca_surf_ok d c f : In f dodeca_faces -> issurface (dodeca_surf d c f) = true.
Proof.
  intros Hf. pose proof (faces_five f Hf) as L. apply issurface_ok.
  - rewrite map_length, L. lia.
  - rewrite map_length, L. reflexivity.
  - intros p Hp. apply in_map_iff in Hp as (i & <- & _). reflexivity.
  - intros m Hm. assert (E : m = face_normal (map (dpos d c) f)) by (cbn [In] in Hm; intuition congruence). rewrite E. reflexivity.
Qed.
Lemma dodeca_surface_val d c f : In f dodeca_faces -> dodeca_surface (dodeca_points d c) f = Val (dodeca_surf d c f).
Proof.
  intros Hf. unfold dodeca_surface.
  assert (E : map (at_ (dodeca_points d c)) f = map (dpos d c) f) by (apply map_ext_in; intros i Hi; apply at_points; eapply faces_range; eassumption).
  rewrite E. set (n := face_normal _). unfold mk_surface. pose proof (faces_five f Hf) as L.
  assert (I : issurface (mksurf (map (dpos d c) f) [n; n; n; n; n] [(0, 1, 2); (0, 2, 3); (0, 3, 4)]%Z [] []) = true).
  { apply issurface_ok.
    - rewrite map_length, L. lia.
    - rewrite map_length, L. reflexivity.
    - intros p Hp. apply in_map_iff in Hp as (i & <- & _). reflexivity.
    - intros m Hm. assert (Em : m = n) by (cbn [In] in Hm; intuition congruence). rewrite Em. reflexivity. }
  rewrite I, map_length, L. reflexivity.
Qed.
Lemma dodecahedron_val d c : dodecahedron d c = Val (dodeca_surfs d c).
Proof.
  unfold dodecahedron, dodeca_surfs. assert (G : forall l, incl l dodeca_faces -> omap (dodeca_surface (dodeca_points d c)) l = Val (map (dodeca_surf d c) l)).
  { induction l as [|f l IH]; intros I; [reflexivity|]. cbn [omap map]. rewrite dodeca_surface_val by (apply I; left; reflexivity). cbn [obind].
    rewrite IH by (intros x Hx; apply I; right; exact Hx). reflexivity. }
  apply G. apply incl_refl.
Qed.
Lemma dodeca_issolid d c : issolid (dodeca_surfs d c) = true.
Proof. unfold issolid. apply forallb_forall. intros s Hs. apply in_map_iff in Hs as (f & <- & Hf). apply dodeca_surf_ok. exact Hf. Qed.
Lemma dodeca_triangles d c : triangles (dodeca_surfs d c) (map (at_pos (dpos d c)) dodeca_ltris).
Proof.
  exists (map (fun f => map (at_pos (dpos d c)) (fan f)) dodeca_faces). split.
  - unfold dodeca_surfs. assert (G : forall l, incl l dodeca_faces -> Forall2 (fun s l => Forall2 (face_corners s) (faces s) l) (map (dodeca_surf d c) l) (map (fun f => map (at_pos (dpos d c)) (fan f)) l)).
    { induction l as [|f l IH]; intros I; [constructor|]. cbn [map]. constructor; [|apply IH; intros x Hx; apply I; right; exact Hx].
      pose proof (faces_five f (I f (or_introl eq_refl))) as L. destruct f as [|a [|b [|e [|g [|k [|? f]]]]]]; try discriminate L.
      unfold dodeca_surf, fan. cbn [faces map nth at_pos].
      repeat constructor; cbn [face_corners verts map]; repeat split.
      all: first [ exists 0%nat; split; [reflexivity|left; reflexivity] | exists 1%nat; split; [reflexivity|left; reflexivity]
                 | exists 2%nat; split; [reflexivity|left; reflexivity] | exists 3%nat; split; [reflexivity|left; reflexivity]
                 | exists 4%nat; split; [reflexivity|left; reflexivity] ]. }
    apply G. apply incl_refl.
  - unfold dodeca_ltris. rewrite flat_map_concat_map, concat_map, map_map. reflexivity.
Qed.
Lemma dodeca_signed d c : signed_volume (map (at_pos (dpos d c)) dodeca_ltris) = (15 + 7 * sqrt 5) / 4 * (dedge d * dedge d * dedge d).
Proof.
  assert (E : map (at_pos (dpos d c)) dodeca_ltris = map (tmap (act (dmap d c))) (map (at_pos raw) dodeca_ltris)).
  { rewrite map_map. apply map_ext. intros [[i j] k]. reflexivity. }
  rewrite E, signed_volume_act, dmap_det, raw_volume by (apply orient_pos, dodeca_lorient). unfold dedge. field.
Qed.
Lemma dodeca_closed d c : 2 * epsilon < dedge d -> 0 < d ->
  issolidclosed (dodeca_surfs d c) = Val true /\ volumeof (dodeca_surfs d c) = Val ((15 + 7 * sqrt 5) / 4 * (dedge d * dedge d * dedge d)).
Proof.
  intros He Hd. assert (S : forall a b, label dodeca_ltris a -> label dodeca_ltris b -> a = b \/ 2 * epsilon < dist (dpos d c a) (dpos d c b)).
  { intros a b Ha Hb. destruct (dpos_apart d c a b Hd (dodeca_label a Ha) (dodeca_label b Hb)) as [->|H]; [left; reflexivity|right; lra]. }
  assert (W : watertight (map (at_pos (dpos d c)) dodeca_ltris)).
  { apply tight_pos; auto using dodeca_lorient, dodeca_nodup, dodeca_noloop. apply sep_inj. exact S. }
  assert (C : issolidclosed (dodeca_surfs d c) = Val true).
  { apply (closed_iff _ _ (dodeca_issolid d c) (dodeca_triangles d c) (separated_pos _ _ S)). exact W. }
  split; [exact C|]. apply (volumeof_iff _ _ _ (dodeca_triangles d c)). split; [apply dodeca_issolid|]. split; [exact C|].
  rewrite dodeca_signed. rewrite Rabs_pos_eq; [reflexivity|]. assert (0 < dedge d) by (unfold epsilon in He; lra).
  apply Rmult_le_pos; [pose proof (sqrt_pos 5); lra|]. left. apply Rmult_lt_0_compat; [apply Rmult_lt_0_compat; assumption|assumption].
Qed.
(** the documented size and place *)
Lemma dodeca_wide d c : 0 < d -> d < dist (dpos d c 0) (dpos d c 7).
Proof.
  intros Hd. unfold dist. rewrite mag_len2. unfold dpos. rewrite dist_act. destruct golden_facts as (G & B & _). pose proof (dscale_pos d Hd) as P.
  assert (D : d = 2 * golden * dscale d) by (unfold dscale; field; lra).
  rewrite D at 1. rewrite <- (sqrt_square (2 * golden * dscale d)) by (apply Rmult_le_pos; lra). apply sqrt_lt_1_alt.
  assert (E : len2 (sub (raw 0) (raw 7)) = 12) by (unfold len2, dot, sub, raw, dodeca_coords, point; cbn [nth vx vy vz]; ring). rewrite E.
  replace (2 * golden * dscale d * (2 * golden * dscale d)) with (dscale d * dscale d * (4 * (golden * golden))) by ring. rewrite G.
  split; [apply Rmult_le_pos; [nra|lra]|]. apply Rmult_lt_compat_l; [nra|lra].
Qed.
Lemma fold_min_le l m : fold_left (fun m (v : R * R * R) => Rmin m (snd v)) l m <= m /\ (forall v, In v l -> fold_left (fun m (v : R * R * R) => Rmin m (snd v)) l m <= snd v).
Proof.
  revert m. induction l as [|a l IH]; intros m; cbn [fold_left]; [split; [lra|intros v []]|].
  destruct (IH (Rmin m (snd a))) as [A B]. split; [apply Rle_trans with (1 := A); apply Rmin_l|].
  intros v [<-|Hv]; [apply Rle_trans with (1 := A); apply Rmin_r|auto].
Qed.
Lemma dodeca_above d c s p : In s (dodeca_surfs d c) -> In p (verts s) -> vz c <= vz p.
Proof.
  intros Hs Hp. apply in_map_iff in Hs as (f & <- & Hf). cbn [dodeca_surf verts] in Hp. apply in_map_iff in Hp as (i & <- & Hi).
  pose proof (faces_range f i Hf Hi) as Li. rewrite <- (at_points d c i Li). unfold at_.
  assert (In (nth i (dodeca_points d c) origin) (dodeca_points d c)) as Hin.
  { apply nth_In. rewrite dodeca_points_val, map_length, seq_length. exact Li. }
  unfold dodeca_points in Hin at 2. fold (dz0 d) in Hin. apply in_map_iff in Hin as ([[x y] z] & <- & Hv). unfold point. cbn [vz].
  assert (dz0 d <= z).
  { unfold dz0, zs_min. destruct (dodeca_turned d) as [|v l]; [destruct Hv|]. destruct (fold_min_le l (snd v)) as [A B].
    destruct Hv as [->|Hv]; [exact A|apply (B _ Hv)]. }
  lra.
Qed.

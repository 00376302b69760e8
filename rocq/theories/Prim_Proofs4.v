(** conic: what it returns. *)
From Coq Require Import Reals List Bool ZArith Lra Lia Permutation Arith.
From Verif Require Import Xform_Model Xform_Proofs Fig_Model Fig_Proofs Fig_Proofs2 Solid_Model Solid_Spec Solid_Proofs Solid_Proofs2
  Solid_Proofs3 Solid_Proofs4 Solid_Proofs5 Solid_Proofs6 Solid_Proofs7 Prim_Model Prim_Spec Prim_Lab Prim_Proofs Prim_Proofs2 Prim_Proofs3.
Import ListNotations.
Open Scope R_scope.

Lemma part_pred n i : (0 < n)%nat -> (i < n)%nat ->
  cos (part ((i + n - 1) mod n) n) = cos (part i n - 2 * PI / INR n) /\ sin (part ((i + n - 1) mod n) n) = sin (part i n - 2 * PI / INR n).
Proof.
  intros Hn Hi. assert (N : 0 < INR n) by (apply INR_pos; auto).
  destruct i as [|i].
  - rewrite Nat.mod_small by lia. rewrite !part_eq by lia. replace (0 + n - 1)%nat with (n - 1)%nat by lia. rewrite minus_INR by lia. simpl (INR 0). simpl (INR 1).
    replace ((INR n - 1) * (2 * PI / INR n)) with ((0 * (2 * PI / INR n) - 2 * PI / INR n) + 2 * INR 1 * PI) by (simpl; field; lra).
    rewrite cos_period, sin_period. auto.
  - replace (S i + n - 1)%nat with (i + 1 * n)%nat by lia. rewrite Nat.mod_add, Nat.mod_small by lia.
    rewrite part_step by lia. replace (part i n + 2 * PI / INR n - 2 * PI / INR n) with (part i n) by ring. auto.
Qed.
(** The normal of the triangle (previous rim point, next rim point, point above). *)
Lemma side_normal t c r n i q : (2 < n)%nat -> (i < n)%nat -> 0 <= r -> 0 <= vz q - vz c ->
  t = (rim_point c r n ((i + n - 1) mod n), rim_point c r n (S i mod n), q) ->
  let d := 2 * r * sin (2 * PI / INR n) * (vz q - vz c) in
  (epsilon <= d -> exists p0 m, tri2p0n t = Val (p0, m) /\ vw m = 0 /\ vx m * vx m + vy m * vy m + vz m * vz m = 1 /\
     0 < vx m * cos (part i n) + vy m * sin (part i n)).
Proof.
  intros Hn Hi Hr Hq -> d Hd. unfold tri2p0n.
  set (p1 := rim_point c r n ((i + n - 1) mod n)). set (p2 := rim_point c r n (S i mod n)).
  assert (X1 : vx p1 = vx c + r * cos (part i n - 2 * PI / INR n)) by (unfold p1; rewrite rim_x; rewrite (proj1 (part_pred n i ltac:(lia) Hi)); reflexivity).
  assert (Y1 : vy p1 = vy c + r * sin (part i n - 2 * PI / INR n)) by (unfold p1; rewrite rim_y; rewrite (proj2 (part_pred n i ltac:(lia) Hi)); reflexivity).
  assert (Z1 : vz p1 = vz c) by apply rim_z.
  assert (X2 : vx p2 = vx c + r * cos (part i n + 2 * PI / INR n)) by (unfold p2; rewrite rim_x; rewrite (proj1 (part_cyc n i Hi)), part_step by lia; reflexivity).
  assert (Y2 : vy p2 = vy c + r * sin (part i n + 2 * PI / INR n)) by (unfold p2; rewrite rim_y; rewrite (proj2 (part_cyc n i Hi)), part_step by lia; reflexivity).
  assert (Z2 : vz p2 = vz c) by apply rim_z.
  clearbody p1 p2. set (a := part i n) in *. set (e := 2 * PI / INR n) in *. 
  set (k := cross (sub p2 p1) (sub q p2)).
  rewrite cos_minus in X1. rewrite sin_minus in Y1. rewrite cos_plus in X2. rewrite sin_plus in Y2.
  assert (KX : vx k = d * cos a).
  { unfold k, cross, sub; cbn [vx vy vz]. rewrite ?X1, ?Y1, ?Z1, ?X2, ?Y2, ?Z2. unfold d. ring. }
  assert (KY : vy k = d * sin a).
  { unfold k, cross, sub; cbn [vx vy vz]. rewrite ?X1, ?Y1, ?Z1, ?X2, ?Y2, ?Z2. unfold d. ring. }
  assert (E : 0 < epsilon) by (unfold epsilon; lra).
  assert (M : d <= mag k).
  { unfold mag. rewrite <- (sqrt_square d) by lra. apply sqrt_le_1_alt. rewrite KX, KY.
    pose proof (sin2_cos2 a) as Q. unfold Rsqr in Q. pose proof (Rle_0_sqr (vz k)) as P. unfold Rsqr in P.
    replace (d * cos a * (d * cos a) + d * sin a * (d * sin a) + vz k * vz k) with (d * d * (sin a * sin a + cos a * cos a) + vz k * vz k) by ring.
    rewrite Q. lra. }
  rewrite Rltb_f by lra.
  eexists. eexists. split; [reflexivity|]. unfold direction, scale3; cbn [vx vy vz vw]. split; [reflexivity|]. split.
  - pose proof (mag_sqr k) as Q. assert (mag k <> 0) by lra.
    replace (vx k * (1 / mag k) * (vx k * (1 / mag k)) + vy k * (1 / mag k) * (vy k * (1 / mag k)) + vz k * (1 / mag k) * (vz k * (1 / mag k)))
      with ((vx k * vx k + vy k * vy k + vz k * vz k) / (mag k * mag k)) by (field; auto). rewrite Q. field. intros F. rewrite F in Q. nra.
  - rewrite KX, KY. pose proof (sin2_cos2 a) as Q. unfold Rsqr in Q.
    replace (d * cos a * (1 / mag k) * cos a + d * sin a * (1 / mag k) * sin a) with (d / mag k * (sin a * sin a + cos a * cos a)) by (field; lra).
    rewrite Q, Rmult_1_r. apply Rdiv_lt_0_compat; lra.
Qed.
Lemma omap_seq {B} (f : nat -> out B) (P : nat -> B -> Prop) l : (forall i, In i l -> exists b, f i = Val b /\ P i b) ->
  exists bs, omap f l = Val bs /\ Forall2 P l bs.
Proof.
  induction l as [|a l IH]; intros H; [exists []; split; [reflexivity|constructor]|].
  destruct (H a (or_introl eq_refl)) as (b & E & Pb). destruct IH as (bs & Es & Ps); [intros; apply H; right; auto|].
  exists (b :: bs). cbn [omap]. rewrite E, Es. split; [reflexivity|constructor; auto].
Qed.
Lemma Forall2_len {A B} (P : A -> B -> Prop) l m : Forall2 P l m -> length l = length m.
Proof. induction 1; simpl; auto. Qed.
Lemma at_rim (f g : nat -> vec) n i : (i < n)%nat -> at_ (map f (seq 0 n) ++ map g (seq 0 n)) i = f i /\ at_ (map f (seq 0 n) ++ map g (seq 0 n)) (n + i) = g i.
Proof.
  intros H. unfold at_. split.
  - rewrite app_nth1 by (rewrite map_length, seq_length; auto). apply nth_error_nth. apply nth_error_seq; auto.
  - rewrite app_nth2 by (rewrite map_length, seq_length; lia). rewrite map_length, seq_length. replace (n + i - n)%nat with i by lia.
    apply nth_error_nth. apply nth_error_seq; auto.
Qed.
Definition side_verts (c : vec) (r0 r1 h : R) (n : nat) : list vec :=
  map (rim_point c r0 n) (seq 0 n) ++ map (rim_point (add c (point 0 0 h)) r1 n) (seq 0 n).
Definition side_faces (n : nat) : list face :=
  flat_map (fun i => [(Z.of_nat i, Z.of_nat (S i mod n), Z.of_nat (n + S i mod n)); (Z.of_nat i, Z.of_nat (n + S i mod n), Z.of_nat (n + i))]) (seq 0 n).
(** outward unit normal at the i-th rim point *)
Definition outward (n i : nat) (m : vec) : Prop :=
  vw m = 0 /\ vx m * vx m + vy m * vy m + vz m * vz m = 1 /\ 0 < vx m * cos (part i n) + vy m * sin (part i n).
Lemma cylinder_side_val c r0 r1 h n : (2 < n)%nat -> 0 <= r0 -> 0 <= h -> epsilon <= 2 * r0 * sin (2 * PI / INR n) * h ->
  exists ns, Forall2 (outward n) (seq 0 n) ns /\
    cylinder_side (disc_verts c r0 n) (disc_verts (add c (point 0 0 h)) r1 n) = Val (mksurf (side_verts c r0 r1 h n) (ns ++ ns) (side_faces n) [] []).
Proof.
  intros Hn Hr Hh Hd. unfold cylinder_side, disc_verts; cbn [tl length]. rewrite map_length, seq_length.
  replace (S n - 1)%nat with n by lia. fold (side_verts c r0 r1 h n). fold (side_faces n).
  destruct (omap_seq (fun i => obind (tri2p0n (at_ (side_verts c r0 r1 h n) ((i + n - 1) mod n)%nat, at_ (side_verts c r0 r1 h n) (S i mod n)%nat, at_ (side_verts c r0 r1 h n) (n + i))) (fun pn => Val (snd pn)))
    (outward n) (seq 0 n)) as (ns & E & F).
  { intros i Hi. apply in_seq in Hi. assert (Hi' : (i < n)%nat) by lia.
    unfold side_verts. rewrite (proj1 (at_rim _ _ n ((i + n - 1) mod n) ltac:(apply Nat.mod_upper_bound; lia))).
    rewrite (proj1 (at_rim _ _ n (S i mod n) ltac:(apply Nat.mod_upper_bound; lia))), (proj2 (at_rim _ _ n i Hi')).
    destruct (side_normal _ c r0 n i (rim_point (add c (point 0 0 h)) r1 n i) Hn Hi' Hr ltac:(rewrite rim_z; unfold add, point; cbn [vz]; lra) eq_refl) as (p0 & m & E & H1 & H2 & H3).
    { rewrite rim_z. unfold add at 1, point; cbn [vz]. replace (vz c + h - vz c) with h by ring. exact Hd. }
    exists m. rewrite E. split; [reflexivity|]. repeat split; auto. }
  exists ns. split; [exact F|]. rewrite E. cbn [obind]. pose proof (Forall2_len _ _ _ F) as L. rewrite seq_length in L.
  apply mk_surface_ok.
  - unfold side_verts. rewrite app_length, !map_length, seq_length. lia.
  - unfold side_verts. rewrite !app_length, !map_length, seq_length. lia.
  - intros p Hp. unfold side_verts in Hp. apply in_app_or in Hp as [Hp|Hp]; apply in_map_iff in Hp as (i & <- & _); reflexivity.
  - assert (G : forall m, In m ns -> vw m = 0).
    { intros m Hm. clear - F Hm. induction F as [|i m' l ns' H F IH]; [destruct Hm|]. destruct Hm as [->|Hm]; [apply H|auto]. }
    intros m Hm. apply in_app_or in Hm as [Hm|Hm]; auto.
Qed.
Lemma wall_tris c r0 r1 h n ns : (0 < n)%nat ->
  let s := mksurf (side_verts c r0 r1 h n) ns (side_faces n) [] [] in
  Forall2 (face_corners s) (faces s) (map (at_pos (fpos c r0 r1 h n)) (wall n)).
Proof.
  intros Hn s. cbn [s faces]. unfold side_faces, wall. rewrite map_flat_map.
  assert (B : forall j, (j < n)%nat -> at_index (verts s) (Z.of_nat j) (fpos c r0 r1 h n (LR false j))).
  { intros j Hj. apply at_index_nat. cbn [s verts fpos]. unfold side_verts. rewrite nth_error_app1 by (rewrite map_length, seq_length; auto). apply nth_error_seq; auto. }
  assert (T : forall j, (j < n)%nat -> at_index (verts s) (Z.of_nat (n + j)) (fpos c r0 r1 h n (LR true j))).
  { intros j Hj. apply at_index_nat. cbn [s verts fpos]. unfold side_verts. rewrite nth_error_app2 by (rewrite map_length, seq_length; lia).
    rewrite map_length, seq_length. replace (n + j - n)%nat with j by lia. apply nth_error_seq; auto. }
  assert (G : forall l, (forall i, In i l -> (i < n)%nat) -> Forall2 (face_corners s)
    (flat_map (fun i => [(Z.of_nat i, Z.of_nat (S i mod n), Z.of_nat (n + S i mod n)); (Z.of_nat i, Z.of_nat (n + S i mod n), Z.of_nat (n + i))]) l)
    (flat_map (fun a => map (at_pos (fpos c r0 r1 h n)) [(LR false a, LR false (S a mod n), LR true (S a mod n)); (LR false a, LR true (S a mod n), LR true a)]) l)).
  { induction l as [|i l IH]; intros Hl; [constructor|]. cbn [flat_map map app].
    assert (Hi : (i < n)%nat) by (apply Hl; left; auto). assert (Hm : (S i mod n < n)%nat) by (apply mod_lt; auto).
    constructor; [|constructor; [|apply IH; intros; apply Hl; right; auto]]; cbn [at_pos face_corners]; auto. }
  apply G. intros i Hi. apply in_seq in Hi. lia.
Qed.
Lemma at_con top (f : nat -> vec) n i : (i < n)%nat -> at_ (top :: map f (seq 0 n)) (S i) = f i.
Proof. intros H. unfold at_. cbn [nth]. apply nth_error_nth. apply nth_error_seq; auto. Qed.
Definition cone_verts (c : vec) (r0 h : R) (n : nat) : list vec := add c (point 0 0 h) :: map (rim_point c r0 n) (seq 0 n).
Lemma cone_normal_eq c r0 h n i : (2 < n)%nat -> (i < n)%nat -> 
  cone_normal (cone_verts c r0 h n) n (S i) = obind (tri2p0n (add c (point 0 0 h), rim_point c r0 n ((i + n - 1) mod n), rim_point c r0 n (S i mod n))) (fun pn => Val (snd pn)).
Proof.
  intros Hn Hi. unfold cone_normal, cone_verts. rewrite next_S. replace (S i + n - 2)%nat with (i + n - 1)%nat by lia.
  rewrite (at_con _ _ n ((i + n - 1) mod n)) by (apply Nat.mod_upper_bound; lia).
  rewrite (at_con _ _ n (S i mod n)) by (apply Nat.mod_upper_bound; lia). reflexivity.
Qed.
(** the normal does not depend on which corner comes first *)
Lemma tri2p0n_cycle p q r p0 m : tri2p0n (p, q, r) = Val (p0, m) -> exists p1, tri2p0n (r, p, q) = Val (p1, m).
Proof.
  unfold tri2p0n. assert (E : cross (sub p r) (sub q p) = cross (sub q p) (sub r q)).
  { unfold cross, sub; cbn [vx vy vz]. apply vec_ext; cbn [vx vy vz vw]; ring. }
  rewrite E. destruct (Rltb _ _); [discriminate|]. intros H. injection H. intros H1 _. eexists. rewrite H1. reflexivity.
Qed.
Lemma cone_side_val c r0 h n : (2 < n)%nat -> 0 <= r0 -> 0 <= h -> epsilon <= 2 * r0 * sin (2 * PI / INR n) * h ->
  exists ns, Forall2 (outward n) (seq 0 n) ns /\
    cone_side (disc_verts c r0 n) (add c (point 0 0 h)) = 
      Val (mksurf (cone_verts c r0 h n) (zhat :: ns) (map (fun i => (0, Z.of_nat (S i), Z.of_nat (S (S i mod n)))%Z) (seq 0 n)) [] []).
Proof.
  intros Hn Hr Hh Hd. unfold cone_side, disc_verts; cbn [tl]. fold (cone_verts c r0 h n).
  assert (L : length (cone_verts c r0 h n) = S n) by (unfold cone_verts; cbn [length]; rewrite map_length, seq_length; reflexivity).
  rewrite L. replace (S n - 1)%nat with n by lia.
  assert (N : forall i, (i < n)%nat -> exists m, cone_normal (cone_verts c r0 h n) n (S i) = Val m /\ outward n i m).
  { intros i Hi. rewrite cone_normal_eq by auto.
    destruct (side_normal _ c r0 n i (add c (point 0 0 h)) Hn Hi Hr ltac:(unfold add, point; cbn [vz]; lra) eq_refl) as (p0 & m & E & H1 & H2 & H3).
    { unfold add at 1, point; cbn [vz]. replace (vz c + h - vz c) with h by ring. exact Hd. }
    destruct (tri2p0n_cycle _ _ _ _ _ E) as (p1 & E1). rewrite E1. exists m. split; [reflexivity|]. repeat split; auto. }
  assert (F : filter (fun i => match cone_normal (cone_verts c r0 h n) n i with Val _ => true | Raise _ => false end) (seq 1 n) = seq 1 n).
  { rewrite <- seq_shift. assert (G : forall l, (forall i, In i l -> (i < n)%nat) -> filter (fun i => match cone_normal (cone_verts c r0 h n) n i with Val _ => true | Raise _ => false end) (map S l) = map S l).
    { induction l as [|i l IH]; intros Hl; [reflexivity|]. cbn [map filter]. destruct (N i (Hl i (or_introl eq_refl))) as (m & -> & _).
      rewrite IH; [reflexivity|intros; apply Hl; right; auto]. }
    apply G. intros i Hi. apply in_seq in Hi. lia. }
  rewrite F. rewrite <- seq_shift, !map_map.
  exists (map (fun i => match cone_normal (cone_verts c r0 h n) n (S i) with Val m => m | Raise _ => mkv 0 0 1 0 end) (seq 0 n)).
  assert (O : Forall2 (outward n) (seq 0 n) (map (fun i => match cone_normal (cone_verts c r0 h n) n (S i) with Val m => m | Raise _ => mkv 0 0 1 0 end) (seq 0 n))).
  { apply Forall2_map_r. intros i Hi. apply in_seq in Hi. destruct (N i ltac:(lia)) as (m & -> & H). exact H. }
  split; [exact O|]. unfold zhat. rewrite mk_surface_ok.
  - f_equal.
  - rewrite L. lia.
  - rewrite L. cbn [length]. rewrite map_length, seq_length. reflexivity.
  - intros p [<-|Hp]; [reflexivity|]. apply in_map_iff in Hp as (i & <- & _). reflexivity.
  - intros m [<-|Hm]; [reflexivity|]. clear - O Hm. revert Hm. induction O as [|i m' l ns' H F IH]; intros Hm; [destruct Hm|]. destruct Hm as [<-|Hm]; [apply H|auto].
Qed.
Lemma cone_tris c r0 r1 h n ns : (0 < n)%nat ->
  let s := mksurf (cone_verts c r0 h n) ns (map (fun i => (0, Z.of_nat (S i), Z.of_nat (S (S i mod n)))%Z) (seq 0 n)) [] [] in
  Forall2 (face_corners s) (faces s) (map (at_pos (fpos c r0 r1 h n)) (cone n)).
Proof.
  intros Hn s. cbn [s faces]. unfold cone. rewrite map_map.
  assert (B : forall j, (j < n)%nat -> at_index (verts s) (Z.of_nat (S j)) (fpos c r0 r1 h n (LR false j))).
  { intros j Hj. apply at_index_nat. cbn [s verts fpos cone_verts nth_error]. apply nth_error_seq; auto. }
  assert (T : at_index (verts s) 0 (fpos c r0 r1 h n (LC true))) by (apply (at_index_nat _ 0); reflexivity).
  apply Forall2_map_map. intros i Hi. apply in_seq in Hi. cbn [at_pos face_corners]. split; [exact T|]. split; apply B; [lia|apply mod_lt; auto].
Qed.

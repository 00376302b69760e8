From Coq Require Import Reals List Bool Lra Lia Psatz FinFun.
From Verif Require Import Xform_Model Xform_Proofs Fig_Model Isect_Proofs4 ASurf_Model ASurf_Spec ASurf_Proofs ASurf_Proofs2.
Import ListNotations.
Open Scope R_scope.

Definition vscale (k : R) (a : vec) : vec := vect (k * vx a) (k * vy a) (k * vz a).
Lemma vect_eq x y z x' y' z' : x = x' -> y = y' -> z = z' -> vect x y z = vect x' y' z'.
Proof. intros -> -> ->. reflexivity. Qed.
Lemma cross_cross a b : frame a b -> vx (cross0 a (cross0 a b)) = - vx b /\ vy (cross0 a (cross0 a b)) = - vy b /\ vz (cross0 a (cross0 a b)) = - vz b.
Proof.
  intros ([A _] & _ & C). repeat split.
  - transitivity (dot a b * vx a - dot a a * vx b); [unb; ring|rewrite A, C; ring].
  - transitivity (dot a b * vy a - dot a a * vy b); [unb; ring|rewrite A, C; ring].
  - transitivity (dot a b * vz a - dot a a * vz b); [unb; ring|rewrite A, C; ring].
Qed.
Lemma turn a ref u k : frame a ref -> comb (- (k * sin u)) ref (k * cos u) (cross0 a ref) = vscale k (cross0 a (around a ref u)).
Proof.
  intros F. destruct (cross_cross a ref F) as (X & Y & Z). unfold comb, vscale. apply vect_eq.
  - transitivity (k * (cos u * vx (cross0 a ref) + sin u * vx (cross0 a (cross0 a ref)))); [rewrite X; ring|]. unfold around. cbv zeta. unb. ring.
  - transitivity (k * (cos u * vy (cross0 a ref) + sin u * vy (cross0 a (cross0 a ref)))); [rewrite Y; ring|]. unfold around. cbv zeta. unb. ring.
  - transitivity (k * (cos u * vz (cross0 a ref) + sin u * vz (cross0 a (cross0 a ref)))); [rewrite Z; ring|]. unfold around. cbv zeta. unb. ring.
Qed.
(** the size of t_u x t_v along the normal *)
Definition jac (s : asurf) (u v : R) : R :=
  match s with
  | Plane _ _ _ _ _ _ => 1
  | Sphere _ r _ _ => r * r * cos v
  | Cylinder _ _ _ r _ _ => r
  | Cone _ _ _ h _ _ => - (v * sin h)
  | Torus _ _ _ R0 r _ _ => r * (R0 + r * cos v)
  | _ => 0
  end.
Lemma comb_unit a d h : frame a d -> dot (comb (cos h) a (sin h) d) (comb (cos h) a (sin h) d) = 1.
Proof.
  intros ([A _] & [D _] & N). pose proof (sin2_cos2 h) as T. unfold Rsqr in T.
  transitivity (cos h * cos h * dot a a + sin h * sin h * dot d d + 2 * cos h * sin h * dot a d); [unfold comb; unb; ring|rewrite A, D, N; lra].
Qed.
Lemma normal_facts s u v : sound_surface s -> exists n, surface_normal s u v = Ok n /\ unit_vec n /\ dot n (t_u s u v) = 0 /\ dot n (t_v s u v) = 0 /\
  cross0 (t_u s u v) (t_v s u v) = vscale (jac s u v) n.
Proof.
  destruct s as [o n ua va ur vr|c r ur vr|o a ref r ur vr|q a ref h ur vr|c a ref R0 r ur vr| |]; cbn [sound_surface surface_normal t_u t_v jac]; try contradiction; intros S.
  - destruct S as (_ & F & ->). exists n. split; [reflexivity|]. pose proof (cross_frame n ua F) as (C1 & C2 & C3). destruct F as (U & [B _] & N). split; [exact U|].
    split; [rewrite <- N; unb; ring|]. split; [rewrite <- C2; unb; ring|]. unfold vscale. apply vect_eq.
    + transitivity (dot ua ua * vx n - dot n ua * vx ua); [unb; ring|rewrite B, N; ring].
    + transitivity (dot ua ua * vy n - dot n ua * vy ua); [unb; ring|rewrite B, N; ring].
    + transitivity (dot ua ua * vz n - dot n ua * vz ua); [unb; ring|rewrite B, N; ring].
  - pose proof (sin2_cos2 u) as T. pose proof (sin2_cos2 v) as V. unfold Rsqr in T, V. eexists. split; [reflexivity|]. split; [split; [|reflexivity]|].
    { unb. transitivity (cos v * cos v * (sin u * sin u + cos u * cos u) + sin v * sin v); [ring|rewrite T; lra]. }
    split; [unb; ring|]. split; [unb; transitivity (r * cos v * sin v * (1 - (sin u * sin u + cos u * cos u))); [ring|rewrite T; ring]|].
    unfold vscale. apply vect_eq; unb; try ring. transitivity (r * r * cos v * sin v * (sin u * sin u + cos u * cos u)); [ring|rewrite T; ring].
  - destruct S as (_ & F & P). rewrite (turn _ _ _ _ F). pose proof (around_frame a ref u F) as G. generalize dependent (around a ref u). intros d G. exists d. split; [reflexivity|].
    pose proof G as ([A _] & U & N). split; [exact U|]. split; [unfold vscale; unb; ring|]. split; [rewrite <- N; unb; ring|]. unfold vscale. apply vect_eq.
    + transitivity (r * (dot a a * vx d - dot a d * vx a)); [unb; ring|rewrite A, N; ring].
    + transitivity (r * (dot a a * vy d - dot a d * vy a)); [unb; ring|rewrite A, N; ring].
    + transitivity (r * (dot a a * vz d - dot a d * vz a)); [unb; ring|rewrite A, N; ring].
  - destruct S as (_ & F & P). rewrite (turn _ _ _ _ F). pose proof (around_frame a ref u F) as G. generalize dependent (around a ref u). intros d G. cbv zeta. eexists. split; [reflexivity|].
    pose proof G as ([A _] & [U _] & N). pose proof (sin2_cos2 h) as T. unfold Rsqr in T. split; [split; [|reflexivity]|].
    { transitivity (sin h * sin h * dot a a + cos h * cos h * dot d d - 2 * cos h * sin h * dot a d); [unb; ring|rewrite A, U, N; lra]. }
    split; [unfold vscale; unb; ring|]. split; [transitivity (sin h * cos h * dot a a - sin h * cos h * dot d d + (sin h * sin h - cos h * cos h) * dot a d); [unfold comb; unb; ring|rewrite A, U, N; ring]|].
    unfold vscale. apply vect_eq.
    + transitivity (v * sin h * (cos h * (dot a a * vx d - dot a d * vx a) + sin h * (dot a d * vx d - dot d d * vx a))); [unfold comb; unb; ring|rewrite A, U, N; unb; ring].
    + transitivity (v * sin h * (cos h * (dot a a * vy d - dot a d * vy a) + sin h * (dot a d * vy d - dot d d * vy a))); [unfold comb; unb; ring|rewrite A, U, N; unb; ring].
    + transitivity (v * sin h * (cos h * (dot a a * vz d - dot a d * vz a) + sin h * (dot a d * vz d - dot d d * vz a))); [unfold comb; unb; ring|rewrite A, U, N; unb; ring].
  - destruct S as (_ & F & P). rewrite (turn _ _ _ _ F). pose proof (around_frame a ref u F) as G. generalize dependent (around a ref u). intros d G. cbv zeta. eexists. split; [reflexivity|].
    pose proof G as ([A _] & [U _] & N). pose proof (sin2_cos2 v) as T. unfold Rsqr in T. split; [split; [|reflexivity]|].
    { transitivity (sin v * sin v * dot a a + cos v * cos v * dot d d + 2 * cos v * sin v * dot a d); [unb; ring|rewrite A, U, N; lra]. }
    split; [unfold vscale; unb; ring|]. split; [transitivity (r * (sin v * cos v * dot a a - sin v * cos v * dot d d + (cos v * cos v - sin v * sin v) * dot a d)); [unfold comb; unb; ring|rewrite A, U, N; ring]|].
    set (f := R0 + r * cos v). unfold vscale. apply vect_eq.
    + transitivity (f * r * (cos v * (dot a a * vx d - dot a d * vx a) - sin v * (dot a d * vx d - dot d d * vx a))); [unfold comb; unb; ring|rewrite A, U, N; unb; ring].
    + transitivity (f * r * (cos v * (dot a a * vy d - dot a d * vy a) - sin v * (dot a d * vy d - dot d d * vy a))); [unfold comb; unb; ring|rewrite A, U, N; unb; ring].
    + transitivity (f * r * (cos v * (dot a a * vz d - dot a d * vz a) - sin v * (dot a d * vz d - dot d d * vz a))); [unfold comb; unb; ring|rewrite A, U, N; unb; ring].
Qed.

(** ** the grid of triangles *)
Open Scope nat_scope.
Definition co : Type := nat * nat.
Definition idx (nu : nat) (c : co) : nat := snd c * (nu + 1) + fst c.
Definition within (nu nv : nat) (c : co) : Prop := fst c <= nu /\ snd c <= nv.
Lemma idx_inj nu nv a b : within nu nv a -> within nu nv b -> idx nu a = idx nu b -> a = b.
Proof.
  destruct a as [i j], b as [i' j']. unfold within, idx. cbn [fst snd]. intros [A _] [B _] E.
  assert (j = j') by nia. subst. f_equal. lia.
Qed.
Definition cedges (c : co) : list (co * co) :=
  let (i, j) := c in
  [((i, j), (i + 1, j)); ((i + 1, j), (i + 1, j + 1)); ((i + 1, j + 1), (i, j)); ((i, j), (i + 1, j + 1)); ((i + 1, j + 1), (i, j + 1)); ((i, j + 1), (i, j))].
Definition cells (nu nv : nat) : list co := flat_map (fun j => map (fun i => (i, j)) (seq 0 nu)) (seq 0 nv).
Definition cidx nu (e : co * co) : nat * nat := (idx nu (fst e), idx nu (snd e)).
Lemma in_cells nu nv i j : In (i, j) (cells nu nv) <-> i < nu /\ j < nv.
Proof.
  unfold cells. rewrite in_flat_map. split.
  - intros (j' & J & K). apply in_map_iff in K as (i' & E & I). injection E as -> ->. apply in_seq in I, J. lia.
  - intros [A B]. exists j. split; [apply in_seq; lia|]. apply in_map_iff. exists i. split; [reflexivity|apply in_seq; lia].
Qed.
Lemma flat_map_flat {A B C} (f : A -> list B) (g : B -> list C) l : flat_map g (flat_map f l) = flat_map (fun a => flat_map g (f a)) l.
Proof. induction l as [|a l IH]; [reflexivity|]. cbn [flat_map]. rewrite flat_map_app, IH. reflexivity. Qed.
Lemma flat_map_map' {A B C} (f : A -> B) (g : B -> list C) l : flat_map g (map f l) = flat_map (fun a => g (f a)) l.
Proof. induction l as [|a l IH]; [reflexivity|]. cbn [map flat_map]. rewrite IH. reflexivity. Qed.
Lemma map_flat_map' {A B C} (f : B -> C) (g : A -> list B) l : map f (flat_map g l) = flat_map (fun a => map f (g a)) l.
Proof. induction l as [|a l IH]; [reflexivity|]. cbn [flat_map]. rewrite map_app, IH. reflexivity. Qed.
Lemma flat_map_ext' {A B} (f g : A -> list B) l : (forall a, f a = g a) -> flat_map f l = flat_map g l.
Proof. intros H. induction l as [|a l IH]; [reflexivity|]. cbn [flat_map]. rewrite H, IH. reflexivity. Qed.
Lemma tile_edges nu i j : flat_map sides (tile nu i j) = map (cidx nu) (cedges (i, j)).
Proof. unfold tile, cedges, cidx, idx. cbn [flat_map sides app map fst snd]. repeat (f_equal; try lia). Qed.
Lemma edges_cells nu nv : flat_map sides (tiles nu nv) = map (cidx nu) (flat_map cedges (cells nu nv)).
Proof.
  unfold tiles, cells. rewrite map_flat_map'. rewrite !flat_map_flat. apply flat_map_ext'. intros j. rewrite flat_map_flat, flat_map_map'. apply flat_map_ext'. intros i. apply tile_edges.
Qed.
Lemma NoDup_app_intro {A} (a b : list A) : NoDup a -> NoDup b -> (forall x, In x a -> In x b -> False) -> NoDup (a ++ b).
Proof.
  intros N. induction N as [|x a Hx N IH]; intros M D; [exact M|]. cbn [app]. constructor.
  - rewrite in_app_iff. intros [K|K]; [contradiction|]. apply (D x); [left; reflexivity|exact K].
  - apply IH; [exact M|]. intros y Y. apply D. right. exact Y.
Qed.
Lemma NoDup_flat_map {A B} (f : A -> list B) l : NoDup l -> (forall a, In a l -> NoDup (f a)) -> (forall a b x, In a l -> In b l -> In x (f a) -> In x (f b) -> a = b) -> NoDup (flat_map f l).
Proof.
  intros N. induction N as [|a l Ha N IH]; intros F D; [constructor|]. cbn [flat_map]. apply NoDup_app_intro.
  - apply F. left. reflexivity.
  - apply IH; [intros b Hb; apply F; right; exact Hb|]. intros b c x Hb Hc. apply D; right; assumption.
  - intros x X Y. apply in_flat_map in Y as (b & Hb & Y). assert (a = b) by (apply (D a b x); [left; reflexivity|right; exact Hb|exact X|exact Y]). subst. contradiction.
Qed.

Lemma cells_nodup nu nv : NoDup (cells nu nv).
Proof.
  apply NoDup_flat_map; [apply seq_NoDup| |].
  - intros j _. apply Injective_map_NoDup; [|apply seq_NoDup]. intros a b E. injection E as ->. reflexivity.
  - intros a b x _ _ X Y. apply in_map_iff in X as (i & <- & _). apply in_map_iff in Y as (k & E & _). injection E as _ ->. reflexivity.
Qed.
Ltac peq := repeat match goal with |- (_, _) = (_, _) => apply f_equal2 end; lia.
Ltac pick H := cbn [cedges In] in H; repeat (destruct H as [H|H]); try contradiction.
Lemma cedges_nodup nu nv : NoDup (flat_map cedges (cells nu nv)).
Proof.
  apply NoDup_flat_map; [apply cells_nodup| |].
  - intros [i j] _. cbn [cedges]. repeat constructor; cbn [In]; intros H; repeat (destruct H as [H|H]); try contradiction; injection H; intros; lia.
  - intros [i j] [i' j'] [[a b] [c d]] _ _ X Y. pick X; pick Y; rewrite <- X in Y; injection Y; intros; try (f_equal; lia); exfalso; lia.
Qed.
Lemma cedges_within nu nv e : In e (flat_map cedges (cells nu nv)) -> within nu nv (fst e) /\ within nu nv (snd e).
Proof.
  intros H. apply in_flat_map in H as ([i j] & C & H). apply in_cells in C. unfold within. pick H; rewrite <- H; cbn [fst snd]; lia.
Qed.
Lemma NoDup_map_on {A B} (f : A -> B) l : NoDup l -> (forall a b, In a l -> In b l -> f a = f b -> a = b) -> NoDup (map f l).
Proof.
  intros N. induction N as [|a l Ha N IH]; intros I; [constructor|]. cbn [map]. constructor.
  - intros K. apply in_map_iff in K as (b & E & Hb). apply Ha. rewrite (I a b); [exact Hb|left; reflexivity|right; exact Hb|auto].
  - apply IH. intros x y X Y. apply I; right; assumption.
Qed.
Lemma cidx_inj nu nv d e : In d (flat_map cedges (cells nu nv)) -> In e (flat_map cedges (cells nu nv)) -> cidx nu d = cidx nu e -> d = e.
Proof.
  intros D E K. apply cedges_within in D, E. destruct d as [a b], e as [a' b']. cbn [fst snd] in *. unfold cidx in K. injection K as K1 K2.
  f_equal; eapply (idx_inj nu nv); tauto.
Qed.
Lemma sides_nodup nu nv : NoDup (flat_map sides (tiles nu nv)).
Proof. rewrite edges_cells. apply NoDup_map_on; [apply cedges_nodup|]. intros a b. apply cidx_inj. Qed.
(** the rim, in coordinates *)
Definition crim (nu nv : nat) (e : co * co) : Prop :=
  (exists i, i < nu /\ e = ((i, 0), (i + 1, 0))) \/ (exists j, j < nv /\ e = ((nu, j), (nu, j + 1))) \/
  (exists i, i < nu /\ e = ((i + 1, nv), (i, nv))) \/ (exists j, j < nv /\ e = ((0, j + 1), (0, j))).
Lemma in_edges nu nv e : In e (flat_map cedges (cells nu nv)) <-> exists i j, i < nu /\ j < nv /\ In e (cedges (i, j)).
Proof.
  rewrite in_flat_map. split; [intros ([i j] & C & H); apply in_cells in C; exists i, j; tauto|]. intros (i & j & A & B & H). exists (i, j). split; [apply in_cells; auto|exact H].
Qed.
Ltac here k := match k with 0 => left | 1 => right; left | 2 => right; right; left | 3 => right; right; right; left | 4 => right; right; right; right; left | 5 => right; right; right; right; right; left end.
Lemma rim_is nu nv e : crim nu nv e -> 0 < nu -> 0 < nv -> In e (flat_map cedges (cells nu nv)) /\ ~ In (snd e, fst e) (flat_map cedges (cells nu nv)).
Proof.
  intros C NU NV. rewrite !in_edges. split.
  - destruct C as [(i & I & ->)|[(j & J & ->)|[(i & I & ->)|(j & J & ->)]]].
    + exists i, 0. split; [exact I|]. split; [exact NV|]. left. reflexivity.
    + exists (nu - 1), j. split; [lia|]. split; [exact J|]. right. left. peq.
    + exists i, (nv - 1). split; [exact I|]. split; [lia|]. do 4 right. left. peq.
    + exists 0, j. split; [exact NU|]. split; [exact J|]. do 5 right. left. reflexivity.
  - intros (a & b & A & B & H). destruct C as [(i & I & ->)|[(j & J & ->)|[(i & I & ->)|(j & J & ->)]]]; cbn [fst snd] in H; pick H; injection H; intros; lia.
Qed.
Lemma inner_is nu nv e : In e (flat_map cedges (cells nu nv)) -> crim nu nv e \/ In (snd e, fst e) (flat_map cedges (cells nu nv)).
Proof.
  rewrite !in_edges. intros (i & j & A & B & H). pick H; subst e; cbn [fst snd].
  - destruct j as [|j]; [left; left; exists i; auto|]. right. exists i, j. split; [exact A|]. split; [lia|]. do 4 right. left. peq.
  - destruct (Nat.eq_dec (i + 1) nu) as [E|E]; [left; right; left; exists j; subst nu; auto|]. right. exists (i + 1), j. split; [lia|]. split; [exact B|]. do 5 right. left. reflexivity.
  - right. exists i, j. split; [exact A|]. split; [exact B|]. do 3 right. left. reflexivity.
  - right. exists i, j. split; [exact A|]. split; [exact B|]. do 2 right. left. reflexivity.
  - destruct (Nat.eq_dec (j + 1) nv) as [E|E]; [left; do 2 right; left; exists i; subst nv; auto|]. right. exists i, (j + 1). split; [exact A|]. split; [lia|]. left. reflexivity.
  - destruct i as [|i]; [left; do 3 right; exists j; auto|]. right. exists i, j. split; [lia|]. split; [exact B|]. right. left. peq.
Qed.
(** going round it *)
Lemma steps_cut l x r : steps (l ++ x :: r) = steps (l ++ [x]) ++ steps (x :: r).
Proof.
  induction l as [|a l IH]; [reflexivity|]. destruct l as [|b l]; [reflexivity|].
  change ((a :: b :: l) ++ x :: r) with (a :: b :: (l ++ x :: r)). change ((a :: b :: l) ++ [x]) with (a :: b :: (l ++ [x])).
  cbn [steps app] in *. f_equal. exact IH.
Qed.
Lemma steps_map f n : forall s, steps (map f (seq s (n + 1))) = map (fun k => (f k, f (S k))) (seq s n).
Proof.
  induction n as [|n IH]; intros s; [reflexivity|]. change (S n + 1) with (S (n + 1)). cbn [seq map]. specialize (IH (S s)).
  replace (n + 1) with (S n) in * by lia. cbn [seq map] in *. cbn [steps]. cbn [steps] in IH. rewrite IH. reflexivity.
Qed.
Lemma steps_rev f n : steps (map f (rev (seq 0 (n + 1)))) = map (fun k => (f (S k), f k)) (rev (seq 0 n)).
Proof.
  induction n as [|n IH]; [reflexivity|]. replace (S n + 1) with (S (n + 1)) by lia. rewrite seq_S, rev_app_distr. cbn [rev app map].
  rewrite (seq_S n 0), rev_app_distr. cbn [rev app map plus]. rewrite <- IH. replace (n + 1) with (S n) by lia. rewrite seq_S, rev_app_distr. cbn [rev app map plus steps]. reflexivity.
Qed.
Lemma rim_steps nu nv : 0 < nu -> 0 < nv -> round (rim nu nv) =
  map (fun k => (k, S k)) (seq 0 nu) ++ map (fun j => (idx nu (nu, j), idx nu (nu, S j))) (seq 0 nv)
  ++ map (fun i => (idx nu (S i, nv), idx nu (i, nv))) (rev (seq 0 nu)) ++ map (fun j => (idx nu (0, S j), idx nu (0, j))) (rev (seq 0 nv)).
Proof.
  intros NU NV. destruct nv as [|nv]; [lia|]. destruct nu as [|nu]; [lia|]. set (N := S nu) in *. set (M := S nv) in *.
  assert (E1 : seq 0 (N + 1) = seq 0 N ++ [N]) by (replace (N + 1) with (S N) by lia; apply seq_S).
  assert (E2 : map (fun j => idx N (N, j)) (seq 0 (M + 1)) = N :: map (fun j => j * (N + 1) + N) (seq 1 nv) ++ [idx N (N, M)]).
  { replace (M + 1) with (S M) by lia. change (seq 0 (S M)) with (0 :: seq 1 (S nv)). rewrite (seq_S nv 1), map_cons, map_app. reflexivity. }
  assert (E3 : map (fun i => idx N (i, M)) (rev (seq 0 (N + 1))) = idx N (N, M) :: map (fun i => M * (N + 1) + i) (rev (seq 1 nu)) ++ [idx N (0, M)]).
  { rewrite E1, rev_app_distr. cbn [rev app map]. f_equal. change (seq 0 N) with (0 :: seq 1 nu). cbn [rev]. rewrite map_app. reflexivity. }
  assert (E4 : map (fun j => idx N (0, j)) (rev (seq 0 (M + 1))) = idx N (0, M) :: map (fun j => j * (N + 1)) (rev (seq 1 nv)) ++ [0]).
  { replace (M + 1) with (S M) by lia. rewrite seq_S, rev_app_distr. cbn [rev app map plus]. f_equal. change (seq 0 M) with (0 :: seq 1 nv). cbn [rev]. rewrite map_app. f_equal. apply map_ext. intros j. unfold idx. cbn [fst snd]. lia. }
  assert (R : round (rim N M) = steps (seq 0 N ++ [N] ++ map (fun j => j * (N + 1) + N) (seq 1 nv) ++ [idx N (N, M)] ++ map (fun i => M * (N + 1) + i) (rev (seq 1 nu)) ++ [idx N (0, M)] ++ map (fun j => j * (N + 1)) (rev (seq 1 nv)) ++ [0])).
  { assert (Q : rim N M = seq 0 N ++ [N] ++ map (fun j => j * (N + 1) + N) (seq 1 nv) ++ [idx N (N, M)] ++ map (fun i => M * (N + 1) + i) (rev (seq 1 nu)) ++ [idx N (0, M)] ++ map (fun j => j * (N + 1)) (rev (seq 1 nv))).
    { unfold rim. rewrite E1. replace (M - 1) with nv by lia. change (seq 1 M) with (seq 1 (S nv)). rewrite (seq_S nv 1), map_app. change (rev (seq 0 N)) with (rev (seq 1 nu) ++ [0]). rewrite (map_app _ (rev (seq 1 nu))). rewrite <- !app_assoc. reflexivity. }
    assert (H : exists t, rim N M = 0 :: t) by (rewrite Q; eexists; reflexivity). destruct H as (t & H). unfold round. rewrite H, <- H, Q. rewrite <- !app_assoc. reflexivity. }
  rewrite R. clear R. change ([N] ++ ?x) with (N :: x). rewrite steps_cut. f_equal.
  - rewrite <- E1. rewrite <- (map_id (seq 0 (N + 1))). apply steps_map.
  - rewrite app_comm_cons. change ([idx N (N, M)] ++ ?x) with (idx N (N, M) :: x). rewrite steps_cut. f_equal.
    + cbn [app]. rewrite <- E2. apply (steps_map (fun j => idx N (N, j))).
    + rewrite app_comm_cons. change ([idx N (0, M)] ++ ?x) with (idx N (0, M) :: x). rewrite steps_cut. f_equal.
      * cbn [app]. rewrite <- E3. apply (steps_rev (fun i => idx N (i, M))).
      * rewrite <- E4. apply (steps_rev (fun j => idx N (0, j))).
Qed.
Lemma in_rim nu nv a b : 0 < nu -> 0 < nv -> In (a, b) (round (rim nu nv)) <-> exists e, crim nu nv e /\ (a, b) = cidx nu e.
Proof.
  intros NU NV. rewrite rim_steps by assumption. rewrite !in_app_iff, !in_map_iff. split.
  - intros [(i & E & I)|[(j & E & I)|[(i & E & I)|(j & E & I)]]].
    + apply in_seq in I. exists ((i, 0), (i + 1, 0)). split; [left; exists i; split; [lia|reflexivity]|]. rewrite <- E. unfold cidx, idx. cbn [fst snd]. f_equal; lia.
    + apply in_seq in I. exists ((nu, j), (nu, j + 1)). split; [right; left; exists j; split; [lia|reflexivity]|]. rewrite <- E. unfold cidx, idx. cbn [fst snd]. f_equal; lia.
    + apply in_rev in I. apply in_seq in I. exists ((i + 1, nv), (i, nv)). split; [do 2 right; left; exists i; split; [lia|reflexivity]|]. rewrite <- E. unfold cidx, idx. cbn [fst snd]. f_equal; lia.
    + apply in_rev in I. apply in_seq in I. exists ((0, j + 1), (0, j)). split; [do 3 right; exists j; split; [lia|reflexivity]|]. rewrite <- E. unfold cidx, idx. cbn [fst snd]. f_equal; lia.
  - intros (e & C & E). rewrite E. destruct C as [(i & I & ->)|[(j & I & ->)|[(i & I & ->)|(j & I & ->)]]].
    + left. exists i. split; [unfold cidx, idx; cbn [fst snd]; f_equal; lia|apply in_seq; lia].
    + right. left. exists j. split; [unfold cidx, idx; cbn [fst snd]; f_equal; lia|apply in_seq; lia].
    + do 2 right. left. exists i. split; [unfold cidx, idx; cbn [fst snd]; f_equal; lia|apply -> in_rev; apply in_seq; lia].
    + do 3 right. exists j. split; [unfold cidx, idx; cbn [fst snd]; f_equal; lia|apply -> in_rev; apply in_seq; lia].
Qed.
Lemma edge_swap nu nv a b e : In e (flat_map cedges (cells nu nv)) -> (a, b) = cidx nu e ->
  In (b, a) (flat_map sides (tiles nu nv)) <-> In (snd e, fst e) (flat_map cedges (cells nu nv)).
Proof.
  intros He E. rewrite edges_cells, in_map_iff. unfold cidx in E. injection E as -> ->. split.
  - intros (d & D & Hd). unfold cidx in D. injection D as D1 D2. apply cedges_within in He as [W1 W2]. pose proof (cedges_within _ _ _ Hd) as [W3 W4].
    apply (idx_inj nu nv) in D1; [|assumption|assumption]. apply (idx_inj nu nv) in D2; [|assumption|assumption]. rewrite <- D1, <- D2, <- surjective_pairing. exact Hd.
  - intros H. exists (snd e, fst e). split; [reflexivity|exact H].
Qed.
Lemma rim_iff nu nv a b : 0 < nu -> 0 < nv ->
  In (a, b) (round (rim nu nv)) <-> In (a, b) (flat_map sides (tiles nu nv)) /\ ~ In (b, a) (flat_map sides (tiles nu nv)).
Proof.
  intros NU NV. rewrite in_rim by assumption. split.
  - intros (e & C & E). destruct (rim_is nu nv e C NU NV) as [H1 H2]. split; [rewrite edges_cells, E; apply in_map; exact H1|]. rewrite (edge_swap nu nv a b e H1 E). exact H2.
  - intros [H1 H2]. rewrite edges_cells in H1. apply in_map_iff in H1 as (e & E & He). exists e. split; [|auto]. destruct (inner_is nu nv e He) as [C|C]; [exact C|]. exfalso. apply H2. apply (edge_swap nu nv a b e He); [auto|exact C].
Qed.
Lemma tiles_len nu nv : length (tiles nu nv) = 2 * nu * nv.
Proof.
  unfold tiles. assert (A : forall j l, length (flat_map (fun i => tile nu i j) l) = 2 * length l) by (intros j l; induction l as [|x l IH]; [reflexivity|cbn [flat_map]; rewrite app_length, IH; cbn [tile length]; lia]).
  assert (B : forall l, length (flat_map (fun j => flat_map (fun i => tile nu i j) (seq 0 nu)) l) = 2 * nu * length l).
  { intros l. induction l as [|x l IH]; [cbn [flat_map length]; lia|]. cbn [flat_map]. rewrite app_length, IH, A, seq_length. cbn [length]. lia. }
  rewrite B, seq_length. reflexivity.
Qed.
Lemma tiles_in nu nv a b c : In (a, b, c) (tiles nu nv) -> a < (nu + 1) * (nv + 1) /\ b < (nu + 1) * (nv + 1) /\ c < (nu + 1) * (nv + 1).
Proof.
  intros H. apply in_flat_map in H as (j & J & H). apply in_flat_map in H as (i & I & H). apply in_seq in I, J.
  assert (K : (j + 1) * (nu + 1) + i + 1 < (nu + 1) * (nv + 1)) by nia. cbn [tile In] in H. destruct H as [H|[H|[]]]; injection H as <- <- <-; nia.
Qed.
Lemma grid_at_nth nu nv i j : i <= nu -> j <= nv -> nth_error (grid nu nv) (j * (nu + 1) + i) = Some (i, j).
Proof.
  intros I J. unfold grid.
  assert (A : forall n s, j < n -> nth_error (flat_map (fun j => map (fun i => (i, j)) (seq 0 (nu + 1))) (seq s n)) (j * (nu + 1) + i) = Some (i, s + j)).
  { induction j as [|j IH]; intros n s L.
    - destruct n as [|n]; [lia|]. cbn [seq flat_map]. rewrite nth_error_app1 by (rewrite map_length, seq_length; lia). rewrite nth_error_map. cbn [mult plus].
      rewrite (nth_error_nth' (seq 0 (nu + 1)) 0) by (rewrite seq_length; lia). rewrite seq_nth by lia. cbn [option_map plus]. f_equal. f_equal. lia.
    - destruct n as [|n]; [lia|]. cbn [seq flat_map]. rewrite nth_error_app2 by (rewrite map_length, seq_length; nia). rewrite map_length, seq_length.
      replace (S j * (nu + 1) + i - (nu + 1)) with (j * (nu + 1) + i) by nia. rewrite (IH ltac:(lia) n (S s)) by lia. f_equal. f_equal. lia. }
  rewrite (A (nv + 1) 0) by lia. reflexivity.
Qed.
Lemma grid_len nu nv : length (grid nu nv) = (nu + 1) * (nv + 1).
Proof.
  unfold grid. assert (A : forall l : list nat, length (flat_map (fun j => map (fun i => (i, j)) (seq 0 (nu + 1))) l) = (nu + 1) * length l).
  { induction l as [|x l IH]; [cbn [flat_map length]; lia|]. cbn [flat_map]. rewrite app_length, IH, map_length, seq_length. cbn [length]. lia. }
  rewrite A, seq_length. reflexivity.
Qed.
Lemma all_nth {A} (xs : list (res A)) l : all xs = Ok l -> length l = length xs /\ forall k x, nth_error xs k = Some x -> exists a, x = Ok a /\ nth_error l k = Some a.
Proof.
  revert l. induction xs as [|x xs IH]; intros l E.
  - injection E as <-. split; [reflexivity|]. intros [|k] x K; discriminate.
  - cbn [all] in E. destruct x as [a| | | | |]; try discriminate. cbn [bind] in E. destruct (all xs) as [m| | | | |] eqn:M; try discriminate. cbn [bind] in E. injection E as <-.
    destruct (IH m eq_refl) as [L K]. split; [cbn [length]; lia|]. intros [|k] x Hx; [injection Hx as <-; exists a; auto|]. exact (K k x Hx).
Qed.
Lemma all_ok {A} (xs : list (res A)) : (forall x, In x xs -> exists a, x = Ok a) -> exists l, all xs = Ok l.
Proof.
  induction xs as [|x xs IH]; intros H; [exists []; reflexivity|]. destruct (H x (or_introl eq_refl)) as (a & ->). destruct IH as (l & E); [intros y Y; apply H; right; exact Y|].
  exists (a :: l). cbn [all bind]. rewrite E. reflexivity.
Qed.

From Coq Require Import Reals List Bool Lra Lia Psatz.
From Verif Require Import Xform_Model Xform_Proofs Fig_Model Isect_Proofs4 ASurf_Model ASurf_Spec ASurf_Proofs.
Import ListNotations.
Open Scope R_scope.

Ltac unb := unfold dot, sub, add, scale3, cross, cross0, as_point, point, vect; cbn [vx vy vz vw].
Lemma dist_val p c r : 0 <= r -> dot (sub p c) (sub p c) = r * r -> dist p c = r.
Proof. intros P H. unfold dist, mag. apply sqrt_lem_1; [|exact P|symmetry; exact H]. unfold dot in H. rewrite H. nra. Qed.
Lemma dist_inv p c : dot (sub p c) (sub p c) = dist p c * dist p c /\ 0 <= dist p c.
Proof. split; [unfold dist; rewrite mag_sq; reflexivity|apply mag_nonneg]. Qed.
(** p - c = k w *)
Definition offs (p c : vec) (k : R) (w : vec) : Prop := vx p = vx c + k * vx w /\ vy p = vy c + k * vy w /\ vz p = vz c + k * vz w.
Lemma offs_dist p c k w : dot w w = 1 -> 0 <= k -> offs p c k w -> dist p c = k.
Proof.
  intros U K (X & Y & Z). apply dist_val; [exact K|]. transitivity (k * k * dot w w); [|rewrite U; ring].
  unfold dot, sub. cbn [vx vy vz]. rewrite X, Y, Z. ring.
Qed.
Lemma offs_dot p c k w e : offs p c k w -> dot (sub p c) e = k * dot w e.
Proof. intros (X & Y & Z). unfold dot, sub. cbn [vx vy vz]. rewrite X, Y, Z. ring. Qed.
Lemma offs_of p c k : 0 < k -> dist p c = k -> exists w, unit_vec w /\ offs p c k w.
Proof.
  intros K D. exists (over (sub p c) k). split.
  - rewrite <- D. unfold dist. apply over_unit. unfold dist in D. lra.
  - unfold offs, over, vect, sub. cbn [vx vy vz]. repeat split; field; lra.
Qed.

Lemma eval_on s u v : sound_surface s -> in_domain s v -> evaluate_surface s u v = Ok (pt_at s u v) /\ on_surface s (pt_at s u v).
Proof.
  unfold pt_at. destruct s as [o n ua va ur vr|c r ur vr|o a ref r ur vr|q a ref h ur vr|c a ref R0 r ur vr| |]; cbn [sound_surface in_domain evaluate_surface on_surface]; try contradiction; intros S D; (split; [reflexivity|split; [reflexivity|]]).
  - destruct S as (_ & F & ->). pose proof (cross_frame n ua F) as (_ & C & _). destruct F as (_ & _ & F).
    transitivity (u * dot n ua + v * dot n (cross0 n ua)); [|rewrite F, C; ring]. generalize (cross0 n ua). intros e. unb. ring.
  - destruct S as (_ & P). apply (offs_dist _ _ r (vect (cos v * cos u) (cos v * sin u) (sin v))); [|lra|unfold offs; unb; repeat split; ring].
    unb. pose proof (sin2_cos2 u) as T. pose proof (sin2_cos2 v) as V. unfold Rsqr in T, V.
    transitivity (cos v * cos v * (sin u * sin u + cos u * cos u) + sin v * sin v); [ring|rewrite T; lra].
  - destruct S as (_ & F & P). pose proof (around_frame a ref u F) as (_ & [U _] & N). cbv zeta. generalize dependent (around a ref u). intros d U N. exists v.
    set (p := point _ _ _). assert (O : offs p (add o (scale3 a v)) r d) by (unfold offs, p; unb; repeat split; ring).
    split; [rewrite (offs_dot _ _ _ _ _ O)|apply (offs_dist _ _ _ _ U); [lra|exact O]]. transitivity (r * dot a d); [unfold dot; ring|rewrite N; ring].
  - destruct S as (_ & F & P). pose proof (around_frame a ref u F) as (_ & [U _] & N). destruct F as ([A _] & _). cbv zeta. generalize dependent (around a ref u). intros d U N.
    set (p := point _ _ _). set (w := vect (cos h * vx a + sin h * vx d) (cos h * vy a + sin h * vy d) (cos h * vz a + sin h * vz d)).
    assert (O : offs p q v w) by (unfold offs, p, w; unb; repeat split; ring).
    assert (W : dot w w = 1). { pose proof (sin2_cos2 h) as T. unfold Rsqr in T. transitivity (cos h * cos h * dot a a + sin h * sin h * dot d d + 2 * cos h * sin h * dot a d); [unfold w; unb; ring|rewrite A, U, N; lra]. }
    rewrite (offs_dot _ _ _ _ _ O), (offs_dist _ _ _ _ W D O). transitivity (v * (cos h * dot a a + sin h * dot a d)); [unfold w; unb; ring|rewrite A, N; ring].
  - destruct S as (_ & F & P). pose proof (around_frame a ref u F) as (_ & [U _] & N). destruct F as ([A _] & _). cbv zeta. generalize dependent (around a ref u). intros d U N.
    set (p := point _ _ _). set (q := point (vx c + R0 * vx d) (vy c + R0 * vy d) (vz c + R0 * vz d)). set (w := vect (cos v * vx d + sin v * vx a) (cos v * vy d + sin v * vy a) (cos v * vz d + sin v * vz a)).
    exists q. assert (Q : offs q c R0 d) by (unfold offs, q; unb; repeat split; ring). assert (O : offs p q r w) by (unfold offs, p, q, w; unb; repeat split; ring).
    assert (W : dot w w = 1). { pose proof (sin2_cos2 v) as T. unfold Rsqr in T. transitivity (cos v * cos v * dot d d + sin v * sin v * dot a a + 2 * cos v * sin v * dot a d); [unfold w; unb; ring|rewrite A, U, N; lra]. }
    split; [reflexivity|]. split; [apply (offs_dist _ _ _ _ U); [lra|exact Q]|]. split; [rewrite (offs_dot _ _ _ _ _ Q)|]. { transitivity (R0 * dot a d); [unfold dot; ring|rewrite N; ring]. }
    split; [apply (offs_dist _ _ _ _ W); [lra|exact O]|]. rewrite (offs_dot _ _ _ _ _ O). unfold q, w. unb. ring.
Qed.
Lemma vec_eta (p : vec) x y z : vx p = x -> vy p = y -> vz p = z -> vw p = 1 -> point x y z = p.
Proof. destruct p as [a b c d]. cbn [vx vy vz vw]. intros -> -> -> ->. reflexivity. Qed.
Lemma sq3 x y z : x * x + y * y + z * z = 0 -> x = 0 /\ y = 0 /\ z = 0.
Proof. intros H. pose proof (Rle_0_sqr x). pose proof (Rle_0_sqr y). pose proof (Rle_0_sqr z). unfold Rsqr in *. repeat split; apply Rsqr_0_uniq; unfold Rsqr; lra. Qed.
Lemma frame_all a b w : frame a b -> unit_vec w -> dot w a = 0 -> exists u, w = around a b u.
Proof. exact (around_all a b w). Qed.
Lemma sphere_all w : unit_vec w -> exists u v, vx w = cos v * cos u /\ vy w = cos v * sin u /\ vz w = sin v.
Proof.
  intros [U _]. unfold dot in U. set (x := vx w) in *. set (y := vy w) in *. set (z := vz w) in *. set (k := sqrt (x * x + y * y)).
  assert (K : k * k = x * x + y * y) by (apply sqrt_sqrt; nra). assert (KP : 0 <= k) by apply sqrt_pos. destruct (angle_of k z) as (v & V1 & V2); [lra|].
  destruct (Req_dec k 0) as [Z|Z].
  - exists 0, v. rewrite <- V1, <- V2, Z. rewrite Z in K. assert (x = 0) by nra. assert (y = 0) by nra. lra.
  - destruct (angle_of (x / k) (y / k)) as (u & U1 & U2).
    { transitivity ((x * x + y * y) / (k * k)); [field; exact Z|rewrite K; apply Rinv_r; rewrite <- K; nra]. }
    exists u, v. rewrite <- V1, <- V2, <- U1, <- U2. repeat split; field; exact Z.
Qed.
Lemma on_eval s p : sound_surface s -> on_surface s p -> exists u v, in_domain s v /\ evaluate_surface s u v = Ok p.
Proof.
  destruct s as [o n ua va ur vr|c r ur vr|o a ref r ur vr|q a ref h ur vr|c a ref R0 r ur vr| |]; cbn [sound_surface in_domain evaluate_surface on_surface]; try tauto; intros S [W O].
  - destruct S as (_ & F & ->). destruct (in_plane n ua (sub p o) F O) as (X & Y & Z). exists (dot (sub p o) ua), (dot (sub p o) (cross0 n ua)). split; [exact I|]. f_equal.
    set (s := dot (sub p o) ua) in *. set (t := dot (sub p o) (cross0 n ua)) in *. clearbody s t. unfold sub in X, Y, Z. cbn [vx vy vz] in X, Y, Z. apply vec_eta; lra.
  - destruct S as (_ & P). destruct (offs_of p c r P O) as (w & U & X & Y & Z). destruct (sphere_all w U) as (u & v & A & B & C). exists u, v. split; [exact I|]. f_equal. apply vec_eta; [| | |exact W].
    + rewrite X, A. ring.
    + rewrite Y, B. ring.
    + rewrite Z, C. ring.
  - destruct S as (_ & F & P). destruct O as (h & O & D). destruct (offs_of _ _ r P D) as (w & U & X). rewrite (offs_dot _ _ _ _ _ X) in O.
    assert (N : dot w a = 0) by nra. destruct (around_all a ref w F U N) as (u & E). exists u, h. split; [exact I|]. cbv zeta. rewrite <- E. f_equal. destruct X as (X & Y & Z). unfold add, scale3 in X, Y, Z. cbn [vx vy vz] in X, Y, Z. apply vec_eta; lra.
  - destruct S as (_ & F & P). destruct (dist_inv p q) as [E L]. set (l := dist p q) in *.
    destruct (Req_dec l 0) as [Z|Z].
    { exists 0, 0. split; [lra|]. f_equal. rewrite Z in E. unfold dot, sub in E. cbn [vx vy vz] in E. rewrite Rmult_0_l in E. destruct (sq3 _ _ _ E) as (X1 & Y1 & Z1). apply vec_eta; [| | |exact W]; lra. }
    pose proof (sin2_cos2 h) as T. unfold Rsqr in T. assert (SH : 0 < sin h) by (apply sin_gt_0; pose proof PI_RGT_0; lra).
    set (d := vect ((vx p - vx q - l * cos h * vx a) / (l * sin h)) ((vy p - vy q - l * cos h * vy a) / (l * sin h)) ((vz p - vz q - l * cos h * vz a) / (l * sin h))).
    assert (NZ : l * sin h <> 0) by nra. pose proof (proj1 (proj1 F)) as A.
    assert (DA : dot d a = 0).
    { transitivity ((dot (sub p q) a - l * cos h * dot a a) / (l * sin h)); [unfold d; unb; field; lra|]. rewrite O, A. field. lra. }
    assert (DD : unit_vec d).
    { split; [|reflexivity]. transitivity ((dot (sub p q) (sub p q) - 2 * (l * cos h) * dot (sub p q) a + l * cos h * (l * cos h) * dot a a) / ((l * sin h) * (l * sin h))); [unfold d; unb; field; lra|].
      rewrite E, O, A. transitivity ((l * l * (1 - cos h * cos h)) / ((l * sin h) * (l * sin h))); [f_equal; ring|]. replace (1 - cos h * cos h) with (sin h * sin h) by lra. field. lra. }
    destruct (around_all a ref d F DD DA) as (u & EU). exists u, l. split; [exact L|]. cbv zeta. rewrite <- EU. f_equal. unfold d, vect. cbn [vx vy vz]. apply vec_eta; [| | |exact W]; field; lra.
  - destruct S as (_ & F & P). destruct O as (q & WQ & DQ & NQ & DP & NP).
    destruct (offs_of q c R0 ltac:(lra) DQ) as (d & UD & OD). rewrite (offs_dot _ _ _ _ _ OD) in NQ. assert (N : dot d a = 0) by nra.
    destruct (around_all a ref d F UD N) as (u & EU). destruct (offs_of p q r ltac:(lra) DP) as (w & UW & OW).
    rewrite (offs_dot _ _ _ _ _ OW) in NP. pose proof (proj1 F) as A.
    assert (NW : dot w (cross0 d a) = 0).
    { assert (K : dot w (cross a (sub q c)) = - R0 * dot w (cross0 d a)). { destruct OD as (X & Y & Z). unb. rewrite X, Y, Z. ring. } rewrite K in NP. destruct (Rmult_integral _ _ NP) as [?|NP']; [lra|]. destruct (Rmult_integral _ _ NP') as [?|?]; lra. }
    assert (FR : frame d a) by (split; [exact UD|split; [exact A|exact N]]). pose proof (cross_frame d a FR) as (C1 & C2 & C3).
    assert (FC : frame (cross0 d a) d) by (split; [exact C1|split; [exact UD|rewrite <- C2; unfold dot; ring]]).
    destruct (around_all _ _ w FC UW NW) as (v & EV). exists u, v. split; [exact I|]. cbv zeta. rewrite <- EU. f_equal.
    assert (CC : forall e, dot (cross0 (cross0 d a) d) e = dot a e).
    { intros e. transitivity (dot d d * dot a e - dot d a * dot d e); [unb; ring|]. destruct UD as [UD _]. rewrite UD, N. ring. }
    assert (CX : vx (cross0 (cross0 d a) d) = vx a) by (pose proof (CC (vect 1 0 0)) as K; unfold dot, vect in K; cbn [vx vy vz] in K; lra).
    assert (CY : vy (cross0 (cross0 d a) d) = vy a) by (pose proof (CC (vect 0 1 0)) as K; unfold dot, vect in K; cbn [vx vy vz] in K; lra).
    assert (CZ : vz (cross0 (cross0 d a) d) = vz a) by (pose proof (CC (vect 0 0 1)) as K; unfold dot, vect in K; cbn [vx vy vz] in K; lra).
    destruct OD as (X & Y & Z). destruct OW as (X' & Y' & Z'). unfold around in EV. cbv zeta in EV. rewrite CX, CY, CZ in EV. rewrite EV in X', Y', Z'. unfold vect in X', Y', Z'. cbn [vx vy vz] in X', Y', Z'.
    apply vec_eta; [rewrite X', X; ring|rewrite Y', Y; ring|rewrite Z', Z; ring|exact W].
Qed.

(** derivatives *)
Lemma dext f g x l : (forall y, f y = g y) -> derivable_pt_lim f x l -> derivable_pt_lim g x l.
Proof. intros E D e P. destruct (D e P) as (d & K). exists d. intros h. rewrite <- !E. apply K. Qed.
Lemma dlin A B x : derivable_pt_lim (fun y => A + y * B) x B.
Proof.
  intros e P. exists (mkposreal 1 Rlt_0_1). intros h H _. replace ((A + (x + h) * B - (A + x * B)) / h - B) with 0 by (field; exact H). rewrite Rabs_R0. exact P.
Qed.
Lemma dtrig A B C x : derivable_pt_lim (fun y => A + B * cos y + C * sin y) x (- B * sin x + C * cos x).
Proof.
  apply (dext (((fct_cte A) + (mult_real_fct B cos)) + (mult_real_fct C sin))%F); [intros y; unfold plus_fct, mult_real_fct, fct_cte; reflexivity|].
  replace (- B * sin x + C * cos x) with (0 + B * (- sin x) + C * cos x) by ring.
  apply derivable_pt_lim_plus; [apply derivable_pt_lim_plus; [apply derivable_pt_lim_const|]|]; apply derivable_pt_lim_scal; [apply derivable_pt_lim_cos|apply derivable_pt_lim_sin].
Qed.
Ltac trig A B C := eapply dext; [|apply (dtrig A B C)]; intros y; cbv beta; unb; ring.
(** the tangents in closed form *)
Definition comb (s : R) (a : vec) (t : R) (b : vec) : vec := vect (s * vx a + t * vx b) (s * vy a + t * vy b) (s * vz a + t * vz b).
Definition t_u (s : asurf) (u v : R) : vec :=
  match s with
  | Plane _ _ ua _ _ _ => vect (vx ua) (vy ua) (vz ua)
  | Sphere _ r _ _ => vect (- (r * cos v) * sin u) (r * cos v * cos u) 0
  | Cylinder _ a ref r _ _ => comb (- (r * sin u)) ref (r * cos u) (cross0 a ref)
  | Cone _ a ref h _ _ => comb (- (v * sin h * sin u)) ref (v * sin h * cos u) (cross0 a ref)
  | Torus _ a ref R0 r _ _ => comb (- ((R0 + r * cos v) * sin u)) ref ((R0 + r * cos v) * cos u) (cross0 a ref)
  | _ => vect 0 0 0
  end.
Definition t_v (s : asurf) (u v : R) : vec :=
  match s with
  | Plane _ _ _ va _ _ => vect (vx va) (vy va) (vz va)
  | Sphere _ r _ _ => vect (- (r * cos u) * sin v) (- (r * sin u) * sin v) (r * cos v)
  | Cylinder _ a ref r _ _ => vect (vx a) (vy a) (vz a)
  | Cone _ a ref h _ _ => comb (cos h) a (sin h) (around a ref u)
  | Torus _ a ref R0 r _ _ => comb (- (r * sin v)) (around a ref u) (r * cos v) a
  | _ => vect 0 0 0
  end.
Lemma tang s u v : sound_surface s -> tangents s u v (t_u s u v) (t_v s u v).
Proof.
  destruct s as [o n ua va ur vr|c r ur vr|o a ref r ur vr|q a ref h ur vr|c a ref R0 r ur vr| |]; cbn [sound_surface]; try contradiction; intros _; unfold tangents, velocity, pt_at; cbn [evaluate_surface t_u t_v].
  - unb. split; (split; [|split]).
    + eapply dext; [|apply (dlin (vx o + v * vx va))]; intros y; cbv beta; ring.
    + eapply dext; [|apply (dlin (vy o + v * vy va))]; intros y; cbv beta; ring.
    + eapply dext; [|apply (dlin (vz o + v * vz va))]; intros y; cbv beta; ring.
    + eapply dext; [|apply (dlin (vx o + u * vx ua))]; intros y; cbv beta; ring.
    + eapply dext; [|apply (dlin (vy o + u * vy ua))]; intros y; cbv beta; ring.
    + eapply dext; [|apply (dlin (vz o + u * vz ua))]; intros y; cbv beta; ring.
  - unb. split; (split; [|split]).
    + replace (- (r * cos v) * sin u) with (- (r * cos v) * sin u + 0 * cos u) by ring. trig (vx c) (r * cos v) 0.
    + replace (r * cos v * cos u) with (- 0 * sin u + r * cos v * cos u) by ring. trig (vy c) 0 (r * cos v).
    + apply derivable_pt_lim_const.
    + replace (- (r * cos u) * sin v) with (- (r * cos u) * sin v + 0 * cos v) by ring. trig (vx c) (r * cos u) 0.
    + replace (- (r * sin u) * sin v) with (- (r * sin u) * sin v + 0 * cos v) by ring. trig (vy c) (r * sin u) 0.
    + replace (r * cos v) with (- 0 * sin v + r * cos v) by ring. trig (vz c) 0 r.
  - unfold around, comb. cbv zeta. generalize (cross0 a ref). intros e. unb. split; (split; [|split]).
    + replace (- (r * sin u) * vx ref + r * cos u * vx e) with (- (r * vx ref) * sin u + (r * vx e) * cos u) by ring. trig (vx o + v * vx a) (r * vx ref) (r * vx e).
    + replace (- (r * sin u) * vy ref + r * cos u * vy e) with (- (r * vy ref) * sin u + (r * vy e) * cos u) by ring. trig (vy o + v * vy a) (r * vy ref) (r * vy e).
    + replace (- (r * sin u) * vz ref + r * cos u * vz e) with (- (r * vz ref) * sin u + (r * vz e) * cos u) by ring. trig (vz o + v * vz a) (r * vz ref) (r * vz e).
    + eapply dext; [|apply (dlin (vx o + r * (vx ref * cos u + vx e * sin u)))]; intros y; cbv beta; ring.
    + eapply dext; [|apply (dlin (vy o + r * (vy ref * cos u + vy e * sin u)))]; intros y; cbv beta; ring.
    + eapply dext; [|apply (dlin (vz o + r * (vz ref * cos u + vz e * sin u)))]; intros y; cbv beta; ring.
  - unfold around, comb. cbv zeta. generalize (cross0 a ref). intros e. unb. split; (split; [|split]).
    + replace (- (v * sin h * sin u) * vx ref + v * sin h * cos u * vx e) with (- (v * sin h * vx ref) * sin u + (v * sin h * vx e) * cos u) by ring. trig (vx q + v * cos h * vx a) (v * sin h * vx ref) (v * sin h * vx e).
    + replace (- (v * sin h * sin u) * vy ref + v * sin h * cos u * vy e) with (- (v * sin h * vy ref) * sin u + (v * sin h * vy e) * cos u) by ring. trig (vy q + v * cos h * vy a) (v * sin h * vy ref) (v * sin h * vy e).
    + replace (- (v * sin h * sin u) * vz ref + v * sin h * cos u * vz e) with (- (v * sin h * vz ref) * sin u + (v * sin h * vz e) * cos u) by ring. trig (vz q + v * cos h * vz a) (v * sin h * vz ref) (v * sin h * vz e).
    + eapply dext; [|apply (dlin (vx q))]; intros y; cbv beta; ring.
    + eapply dext; [|apply (dlin (vy q))]; intros y; cbv beta; ring.
    + eapply dext; [|apply (dlin (vz q))]; intros y; cbv beta; ring.
  - unfold around, comb. cbv zeta. generalize (cross0 a ref). intros e. unb. split; (split; [|split]).
    + set (f := R0 + r * cos v). replace (- (f * sin u) * vx ref + f * cos u * vx e) with (- (f * vx ref) * sin u + (f * vx e) * cos u) by ring. trig (vx c + r * sin v * vx a) (f * vx ref) (f * vx e).
    + set (f := R0 + r * cos v). replace (- (f * sin u) * vy ref + f * cos u * vy e) with (- (f * vy ref) * sin u + (f * vy e) * cos u) by ring. trig (vy c + r * sin v * vy a) (f * vy ref) (f * vy e).
    + set (f := R0 + r * cos v). replace (- (f * sin u) * vz ref + f * cos u * vz e) with (- (f * vz ref) * sin u + (f * vz e) * cos u) by ring. trig (vz c + r * sin v * vz a) (f * vz ref) (f * vz e).
    + set (f := vx ref * cos u + vx e * sin u). replace (- (r * sin v) * f + r * cos v * vx a) with (- (r * f) * sin v + r * vx a * cos v) by ring. trig (vx c + R0 * f) (r * f) (r * vx a).
    + set (f := vy ref * cos u + vy e * sin u). replace (- (r * sin v) * f + r * cos v * vy a) with (- (r * f) * sin v + r * vy a * cos v) by ring. trig (vy c + R0 * f) (r * f) (r * vy a).
    + set (f := vz ref * cos u + vz e * sin u). replace (- (r * sin v) * f + r * cos v * vz a) with (- (r * f) * sin v + r * vz a * cos v) by ring. trig (vz c + R0 * f) (r * f) (r * vz a).
Qed.

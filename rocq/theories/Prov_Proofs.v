From Coq Require Import ZArith String List Bool Lia.
From Verif Require Import Dict Prov_Model Prov_Spec.
Import ListNotations.
Open Scope Z_scope.
Open Scope list_scope.

Definition lines (s : text) : text := replace_cr (replace_crlf s).
Lemma crlf_cons c r : ~ (c = 13 /\ exists x, r = 10 :: x) -> replace_crlf (c :: r) = c :: replace_crlf r.
Proof.
  intros N. destruct (Z.eq_dec c 13) as [-> |Hc].
  - destruct r as [|d r]; [reflexivity|]. destruct (Z.eq_dec d 10) as [-> |Hd]; [destruct N; eauto|].
    cbn. destruct d as [|p|p]; try reflexivity. repeat (destruct p; try reflexivity). destruct Hd; reflexivity.
  - destruct c as [|p|p]; try reflexivity. cbn. repeat (destruct p; try reflexivity). destruct Hc; reflexivity.
Qed.
Lemma reads_lines t s : reads t s -> lines s = t.
Proof.
  unfold lines. induction 1.
  - reflexivity.
  - rewrite crlf_cons by tauto. cbn. destruct (Z.eqb_spec c 13); [contradiction|]. f_equal. exact IHreads.
  - rewrite crlf_cons by (intros [X _]; discriminate). cbn. f_equal. exact IHreads.
  - change (replace_crlf (13 :: 10 :: s)) with (replace_crlf (10 :: s)). rewrite crlf_cons by (intros [X _]; discriminate). cbn. f_equal. exact IHreads.
  - rewrite crlf_cons. 2:{ intros [_ [x Hx]]. exact (H x Hx). } cbn. f_equal. exact IHreads.
Qed.
Lemma lines_reads s : exists t, reads t s.
Proof.
  assert (G : forall n s, (length s <= n)%nat -> exists t, reads t s).
  { induction n; intros [|c r] L; cbn in L; try (exists []; constructor); try lia.
    destruct (Z.eq_dec c 10) as [-> |N10].
    - destruct (IHn r) as [t Ht]; [lia|]. eexists. apply rd_lf, Ht.
    - destruct (Z.eq_dec c 13) as [-> |N13].
      + destruct r as [|d r'].
        * eexists. apply rd_cr; [discriminate|constructor].
        * destruct (Z.eq_dec d 10) as [-> |Nd].
          -- destruct (IHn r') as [t Ht]; [cbn in L; lia|]. eexists. apply rd_crlf, Ht.
          -- destruct (IHn (d :: r')) as [t Ht]; [lia|]. eexists. apply rd_cr; [|exact Ht]. intros x X. inversion X; auto.
      + destruct (IHn r) as [t Ht]; [lia|]. exists (c :: t). apply rd_char; auto. }
  apply (G (length s)). lia.
Qed.

Section Strip.
  Variable space : Z -> bool.
  Hypothesis sp10 : space 10 = true.
  Hypothesis sp13 : space 13 = true.
  Lemma lstrip_spec s : exists pre, s = pre ++ lstrip space s /\ Forall (fun c => space c = true) pre /\
    (forall c r, lstrip space s = c :: r -> space c = false).
  Proof.
    induction s as [|c s (pre & E & F & N)]; cbn; [exists []; repeat split; auto; discriminate|].
    destruct (space c) eqn:Sc.
    - exists (c :: pre). cbn. rewrite <- E. auto.
    - exists []. repeat split; auto. intros c' r X. inversion X; subst; auto.
  Qed.
  Lemma strip_spec s : trims_to space s (strip space s).
  Proof.
    unfold strip. destruct (lstrip_spec s) as (pre & E & F & N). set (m := lstrip space s) in *.
    destruct (lstrip_spec (rev m)) as (post & E2 & F2 & N2). set (k := lstrip space (rev m)) in *.
    assert (Em : m = rev k ++ rev post) by (rewrite <- rev_app_distr, <- E2, rev_involutive; reflexivity).
    exists pre, (rev post). rewrite <- Em. repeat split; auto.
    - apply Forall_app. split; auto. apply Forall_rev; auto.
    - intros c r X. apply (N c (r ++ rev post)). rewrite Em, X. reflexivity.
    - intros r c X. apply (N2 c (rev r)). rewrite <- (rev_involutive k), X, rev_app_distr. reflexivity.
  Qed.
  Lemma lstrip_app p s : Forall (fun c => space c = true) p -> lstrip space (p ++ s) = lstrip space s.
  Proof. induction 1; cbn; auto. rewrite H; auto. Qed.
  Lemma lstrip_core core : (forall c r, core = c :: r -> space c = false) -> forall post, core <> [] -> lstrip space (core ++ post) = core ++ post.
  Proof. intros N post Hn. destruct core as [|c r]; [destruct (Hn eq_refl)|]. cbn. rewrite (N c r eq_refl). reflexivity. Qed.
  Lemma lstrip_all p : Forall (fun c => space c = true) p -> lstrip space p = [].
  Proof. intros. rewrite <- (app_nil_r p). rewrite lstrip_app; auto. Qed.
  Lemma trims_strip s core : trims_to space s core -> strip space s = core.
  Proof.
    intros (pre & post & -> & F & N1 & N2). apply Forall_app in F as [F1 F2]. unfold strip. rewrite lstrip_app by auto.
    destruct core as [|c r].
    - cbn. rewrite (lstrip_all post) by auto. reflexivity.
    - rewrite lstrip_core by (auto; discriminate). rewrite rev_app_distr, lstrip_app by (apply Forall_rev; auto).
      rewrite <- (app_nil_r (rev (c :: r))), lstrip_core.
      1: rewrite app_nil_r, rev_involutive; reflexivity.
      + intros c' r' X. apply (N2 (rev r') c'). rewrite <- (rev_involutive (c :: r)), X. reflexivity.
      + intros X. apply (f_equal (@rev Z)) in X. rewrite rev_involutive in X. discriminate.
  Qed.

  (** Trimming before or after reading the lines. *)
  Lemma reads_pre : forall n p s t, (length p <= n)%nat -> Forall (fun c => space c = true) p -> reads t (p ++ s) ->
    (forall c r, s = c :: r -> space c = false) ->
    exists q u, t = q ++ u /\ Forall (fun c => space c = true) q /\ reads u s.
  Proof.
    induction n; intros p s t L F R N.
    - destruct p; [|cbn in L; lia]. exists [], t. auto.
    - destruct p as [|c p]; [exists [], t; auto|]. inversion F as [|? ? Sc F']; subst. cbn in L. cbn in R. inversion R; subst.
      + destruct (IHn p s t0) as (q & u & -> & Fq & Ru); auto; [lia|]. exists (c :: q), u. auto.
      + destruct (IHn p s t0) as (q & u & -> & Fq & Ru); auto; [lia|]. exists (10 :: q), u. auto.
      + destruct p as [|d p].
        * cbn in *. subst s. rewrite (N 10 _ eq_refl) in sp10. discriminate.
        * match goal with H : 10 :: _ = _ |- _ => cbn in H; inversion H; subst end. inversion F'; subst. destruct (IHn p s t0) as (q & u & -> & Fq & Ru); auto; [cbn in L; lia|]. exists (10 :: q), u. auto.
      + destruct (IHn p s t0) as (q & u & -> & Fq & Ru); auto; [lia|]. exists (10 :: q), u. auto.
  Qed.
  Lemma reads_post : forall n core p t, (length core <= n)%nat -> Forall (fun c => space c = true) p -> reads t (core ++ p) ->
    (forall r c, core = r ++ [c] -> space c = false) ->
    exists u q, t = u ++ q /\ Forall (fun c => space c = true) q /\ reads u core.
  Proof.
    assert (W : forall p t, Forall (fun c => space c = true) p -> reads t p -> Forall (fun c => space c = true) t).
    { intros p t F R. revert F. induction R; intros F; try (inversion F; subst; constructor; auto; fail); auto.
      inversion F as [|? ? ? F2]; subst. inversion F2; subst. constructor; auto. }
    assert (Tl : forall c core, (forall r x, c :: core = r ++ [x] -> space x = false) -> forall r x, core = r ++ [x] -> space x = false).
    { intros c core N r x ->. apply (N (c :: r) x). reflexivity. }
    induction n; intros core p t L F R N.
    - destruct core; [|cbn in L; lia]. exists [], t. cbn in R. repeat split; eauto. constructor.
    - destruct core as [|c core]; [exists [], t; cbn in R; repeat split; eauto; constructor|]. cbn in L, R. inversion R; subst.
      + destruct (IHn core p t0) as (u & q & -> & Fq & Ru); eauto; [lia|]. exists (c :: u), q. split; [reflexivity|]. split; [auto|]. apply rd_char; auto.
      + destruct (IHn core p t0) as (u & q & -> & Fq & Ru); eauto; [lia|]. exists (10 :: u), q. split; [reflexivity|]. split; [auto|]. apply rd_lf; auto.
      + destruct core as [|d core].
        * exfalso. specialize (N [] 13 eq_refl). congruence.
        * match goal with H : 10 :: _ = _ |- _ => cbn in H; inversion H; subst end. destruct (IHn core p t0) as (u & q & -> & Fq & Ru); eauto; [cbn in L; lia|]. exists (10 :: u), q. split; [reflexivity|]. split; [auto|]. apply rd_crlf; auto.
      + destruct (IHn core p t0) as (u & q & -> & Fq & Ru); eauto; [lia|]. exists (10 :: u), q. split; [reflexivity|]. split; [auto|]. apply rd_cr; auto.
        intros r ->. match goal with H : forall r, _ <> _ |- _ => apply (H (r ++ p)); reflexivity end.
  Qed.
  (** [reads] keeps the first and the last character's blankness. *)
  Lemma reads_first u s : reads u s -> (forall c r, s = c :: r -> space c = false) -> forall c r, u = c :: r -> space c = false.
  Proof. intros R N c r ->. inversion R; subst; try (apply (N c s0); reflexivity); exfalso. 1: specialize (N 10 _ eq_refl). 2,3: specialize (N 13 _ eq_refl). all: congruence. Qed.
  Lemma reads_last u s : reads u s -> (forall r c, s = r ++ [c] -> space c = false) -> forall r c, u = r ++ [c] -> space c = false.
  Proof.
    intros R. induction R; intros N r x E.
    - destruct r; discriminate.
    - destruct r as [|y r]; cbn in E; inversion E; subst.
      + inversion R; subst. apply (N [] x). reflexivity.
      + apply (IHR (fun r' c' X => N (y :: r') c' (f_equal (cons y) X)) r x). reflexivity.
    - destruct r as [|y r]; cbn in E; inversion E; subst.
      + inversion R; subst. apply (N [] 10). reflexivity.
      + apply (IHR (fun r' c' X => N (10 :: r') c' (f_equal (cons 10) X)) r x). reflexivity.
    - destruct r as [|y r]; cbn in E; inversion E; subst.
      + inversion R; subst. apply (N [13] 10). reflexivity.
      + apply (IHR (fun r' c' X => N (13 :: 10 :: r') c' (f_equal (fun l => 13 :: 10 :: l) X)) r x). reflexivity.
    - destruct r as [|y r]; cbn in E; inversion E; subst.
      + inversion R; subst. exfalso. specialize (N [] 13 eq_refl). congruence.
      + apply (IHR (fun r' c' X => N (13 :: r') c' (f_equal (cons 13) X)) r x). reflexivity.
  Qed.
  Lemma normalized_core src t core : reads t src -> trims_to space t core -> normalized space src = core.
  Proof.
    intros R T. destruct (strip_spec src) as (pre & post & E & F & N1 & N2). remember (strip space src) as k eqn:Hk in *.
    apply Forall_app in F as [F1 F2]. assert (Nk : normalized space src = lines k) by (rewrite Hk; reflexivity). rewrite Nk. clear Hk Nk.
    rewrite <- (trims_strip t core T). symmetry.
    destruct k as [|c k'] eqn:Ek.
    - cbn. apply trims_strip. exists t, []. cbn. rewrite app_nil_r. repeat split; auto; try discriminate.
      + rewrite E in R. cbn in R. assert (Fa : Forall (fun c => space c = true) (pre ++ post)) by (apply Forall_app; auto).
        destruct (reads_pre _ (pre ++ post) [] t (le_n _) Fa) as (q & u & -> & Fq & Ru); [rewrite app_nil_r; exact R|discriminate|].
        inversion Ru; subst. rewrite app_nil_r. exact Fq.
    - rewrite <- Ek in *. rewrite E in R.
      destruct (reads_pre _ pre (k ++ post) t (le_n _) F1 R) as (q & u & -> & Fq & Ru).
      { intros c' r' X. apply (N1 c' k'). rewrite Ek in X. cbn in X. injection X as X _. rewrite Ek, X. reflexivity. }
      destruct (reads_post _ k post u (le_n _) F2 Ru) as (v & q2 & -> & Fq2 & Rv).
      { exact N2. }
      rewrite (reads_lines _ _ Rv). apply trims_strip. exists q, q2. repeat split; auto.
      + apply Forall_app; auto.
      + apply (reads_first _ _ Rv N1).
      + apply (reads_last _ _ Rv N2).
  Qed.
End Strip.

Lemma from_to p : from_dict (to_dict p) = Some p.
Proof. destruct p. reflexivity. Qed.

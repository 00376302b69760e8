(** A line and a polyline: which points and parameters are reported. *)
From Coq Require Import Reals List Bool Lra Lia Psatz.
From Verif Require Import Xform_Model Xform_Proofs Fig_Model Fig_Proofs Isect_Model Isect_Spec Isect_Proofs2 Isect_Proofs3 Glist_Model Glist_Spec
  Glist_Proofs Glist_Proofs2 Glist_Proofs3 Glist_Proofs4.
Import ListNotations.
Open Scope R_scope.

Definition nil_b {A} (l : list A) : bool := match l with [] => true | _ => false end.
Lemma hits_in closed g ls : forall dst first hs, poly_hits closed ls g dst first = Ok hs -> forall t u s,
  In (t, u, s) hs <-> exists pre l post, ls = pre ++ l :: post /\ ll_params l g = Ok (Some (t, u)) /\
    edge_ok closed (first && nil_b pre) (nil_b post) t = true /\ s = t * linelength l + dst + total_length pre.
Proof.
  induction ls as [|l r IH]; intros dst first hs E t u s.
  - cbn [poly_hits] in E. injection E as <-. split; [intros []|]. intros (pre & l & post & K & _). destruct pre; discriminate.
  - cbn [poly_hits] in E. destruct (ll_params l g) as [o| | | | |] eqn:Q; try discriminate. cbn [bind] in E.
    destruct (poly_hits closed r g (dst + linelength l) false) as [tl| | | | |] eqn:T; try discriminate. cbn [bind] in E. specialize (IH _ _ _ T t u s).
    assert (TAIL : In (t, u, s) tl <-> exists pre m post, l :: r = (l :: pre) ++ m :: post /\ ll_params m g = Ok (Some (t, u)) /\
       edge_ok closed (first && nil_b (l :: pre)) (nil_b post) t = true /\ s = t * linelength m + dst + total_length (l :: pre)).
    { rewrite IH. cbn [nil_b andb]. rewrite andb_false_r. split; intros (pre & m & post & K1 & K2 & K3 & K4); exists pre, m, post.
      - rewrite K1. repeat split; auto. cbn [total_length fold_right]. fold (total_length pre). lra.
      - injection K1 as K1. repeat split; auto. cbn [total_length fold_right] in K4. fold (total_length pre) in K4. lra. }
    assert (HEAD : forall t' u', o = Some (t', u') -> (exists pre m post, l :: r = pre ++ m :: post /\ pre = [] /\ ll_params m g = Ok (Some (t, u)) /\
       edge_ok closed (first && nil_b pre) (nil_b post) t = true /\ s = t * linelength m + dst + total_length pre) <->
       t = t' /\ u = u' /\ edge_ok closed first (nil_b r) t = true /\ s = t * linelength l + dst).
    { intros t' u' ->. split.
      - intros (pre & m & post & K1 & -> & K2 & K3 & K4). injection K1 as <- <-. rewrite Q in K2. injection K2 as -> ->. cbn [nil_b] in K3. rewrite andb_true_r in K3.
        cbn [total_length fold_right] in K4. repeat split; auto. lra.
      - intros (-> & -> & K3 & ->). exists [], l, r. cbn [nil_b app]. rewrite andb_true_r. repeat split; auto. cbn. lra. }
    change (match r with [] => true | _ :: _ => false end) with (nil_b r) in E.
    assert (SPLIT : (exists pre m post, l :: r = pre ++ m :: post /\ ll_params m g = Ok (Some (t, u)) /\
       edge_ok closed (first && nil_b pre) (nil_b post) t = true /\ s = t * linelength m + dst + total_length pre) <->
       (exists pre m post, l :: r = pre ++ m :: post /\ pre = [] /\ ll_params m g = Ok (Some (t, u)) /\
       edge_ok closed (first && nil_b pre) (nil_b post) t = true /\ s = t * linelength m + dst + total_length pre) \/ In (t, u, s) tl).
    { rewrite TAIL. split.
      - intros (pre & m & post & K). destruct pre as [|x pre]; [left; exists [], m, post; tauto|]. destruct K as (K1 & K). pose proof K1 as K1'. cbn [app] in K1'. injection K1' as <- _. right. exists pre, m, post. tauto.
      - intros [(pre & m & post & K1 & K2 & K)|(pre & m & post & K)]; [exists pre, m, post; tauto|exists (l :: pre), m, post; exact K]. }
    rewrite SPLIT. destruct o as [[t' u']|].
    + rewrite (HEAD t' u' eq_refl). destruct (edge_ok closed first (nil_b r) t') eqn:C; injection E as <-.
      * cbn [In]. split; [intros [K|K]; [injection K as <- <- <-; left; auto|right; exact K]|]. intros [(-> & -> & _ & ->)|K]; [left; reflexivity|right; exact K].
      * split; [tauto|]. intros [(-> & _ & K & _)|K]; [congruence|exact K].
    + injection E as <-. split; [tauto|]. intros [(pre & m & post & K1 & -> & K2 & _)|K]; [|exact K]. injection K1 as <- <-. congruence.
Qed.
Lemma hits_total closed g ls : forall dst first, Forall (fun l => ll_planar l g = true) ls -> exists hs, poly_hits closed ls g dst first = Ok hs.
Proof.
  induction ls as [|l r IH]; intros dst first F; cbn [poly_hits]; [eauto|]. inversion F as [|? ? P Fr]; subst.
  assert (exists o, ll_params l g = Ok o) as [o ->]. { unfold ll_params. rewrite P. cbn [negb]. cbv zeta. destruct (Rltb _ _); eauto. }
  cbn [bind]. destruct (IH (dst + linelength l) false Fr) as [tl ->]. cbn [bind]. destruct o as [[t u]|]; [|eauto].
  destruct (edge_ok _ _ _ _); eauto.
Qed.
(** polyline and line in one horizontal plane *)
Lemma level_edges z a g : Forall (fun p => vz p = z /\ vw p = 1) a -> vz (fst g) = z -> vz (snd g) = z ->
  Forall (fun l => ll_planar l g = true /\ vz (fst l) = z /\ vz (snd l) = z /\ vw (fst l) = 1 /\ vw (snd l) = 1) (lines_of a).
Proof.
  intros F G1 G2. apply Forall_forall. intros [p q] I. destruct (lines_of_in _ _ _ I) as [A B]. rewrite Forall_forall in F. destruct (F _ A) as [A1 A2], (F _ B) as [B1 B2].
  cbn [fst snd]. repeat split; auto. unfold ll_planar. cbn [fst snd]. rewrite A1, B1, G1, G2, Rminus_eq_0, Rabs_R0.
  rewrite (proj2 (Rltb_false epsilon 0)) by (unfold epsilon; lra). reflexivity.
Qed.
Lemma level_planar_poly z a : Forall (fun p => vz p = z /\ vw p = 1) a -> isXYPlanar a = true.
Proof.
  destruct a as [|p r]; intros F; [reflexivity|]. cbn [isXYPlanar]. inversion F as [|? ? [A _] Fr]; subst. apply forallb_forall. intros q I. rewrite Forall_forall in Fr. destruct (Fr _ I) as [B _].
  rewrite B, Rminus_eq_0, Rabs_R0. rewrite (proj2 (Rltb_false epsilon 0)) by (unfold epsilon; lra). reflexivity.
Qed.
Lemma same_spot z l g t u : vz (fst l) = z -> vz (snd l) = z -> vw (fst l) = 1 -> vw (snd l) = 1 -> vz (fst g) = z -> vz (snd g) = z -> vw (fst g) = 1 -> vw (snd g) = 1 ->
  ll_params l g = Ok (Some (t, u)) -> sampleline l t = sampleline g u.
Proof.
  intros A B C D A' B' C' D' E. destruct (ll_params_sound _ _ _ _ E) as [X Y]. destruct l as [[a1 a2 a3 a4] [b1 b2 b3 b4]], g as [[c1 c2 c3 c4] [d1 d2 d3 d4]].
  unfold sampleline, add, scale3 in *. cbn [fst snd vx vy vz vw] in *. subst. f_equal; lra.
Qed.
Section Line.
  Variables (z : R) (g : line) (a : list vec).
  Hypotheses (LA : Forall (fun p => vz p = z /\ vw p = 1) a) (G1 : vz (fst g) = z) (G2 : vz (snd g) = z) (W1 : vw (fst g) = 1) (W2 : vw (snd g) = 1)
    (N4 : (4 <= length a)%nat).
  Lemma edges_all : poly_edges a = lines_of a.
  Proof. unfold poly_edges. rewrite lines_len. rewrite (proj2 (Nat.ltb_lt _ _)) by lia. reflexivity. Qed.
  Lemma guard_ok : Nat.ltb (length a) 3 || negb (isXYPlanar a) = false.
  Proof. rewrite (proj2 (Nat.ltb_ge _ _)) by lia. rewrite (level_planar_poly z a LA). reflexivity. Qed.
  Lemma hits_ok : exists hs, poly_hits (poly_closed a) (lines_of a) g 0 true = Ok hs.
  Proof. apply hits_total. eapply Forall_impl; [|apply (level_edges z a g LA G1 G2)]. cbv beta. tauto. Qed.
  Lemma edge_spot pre l post t u : lines_of a = pre ++ l :: post -> ll_params l g = Ok (Some (t, u)) -> sampleline l t = sampleline g u.
  Proof.
    intros E Q. pose proof (level_edges z a g LA G1 G2) as F. rewrite E, Forall_forall in F. destruct (F l) as (_ & A & B & C & D); [apply in_or_app; right; left; reflexivity|].
    apply (same_spot z); assumption.
  Qed.
  Lemma meets_sound ps p : linePolyIntersectXY g a true = Ok (Some ps) -> In p ps -> on_poly a p /\ on_segment g p.
  Proof.
    unfold linePolyIntersectXY. rewrite guard_ok, edges_all. destruct hits_ok as [hs E]. rewrite E. cbn [bind]. intros K I. apply ok_inj in K. unfold some_if in K.
    destruct (map _ _) as [|q qs] eqn:M in K; [discriminate|]. injection K as K. rewrite K in M. rewrite <- M in I. apply in_map_iff in I. destruct I as ([[t u] s] & <- & I).
    apply filter_In in I. destruct I as [I F]. cbn [fst snd negb orb] in *. unfold isin in F. apply andb_prop in F. destruct F as [F1 F2]. apply andb_prop in F1, F2. rewrite !Rleb_true in F1, F2.
    apply (hits_in _ _ _ _ _ _ E) in I. destruct I as (pre & l & post & K1 & K2 & _). split; [|exists u; tauto].
    exists l. split; [rewrite K1; apply in_or_app; right; left; reflexivity|]. exists t. split; [tauto|]. symmetry. apply (edge_spot pre l post); assumption.
  Qed.
  Lemma meets_complete l p : In l (lines_of a) -> epsilon <= ll_denom l g * ll_denom l g -> on_segment l p -> on_segment g p ->
    exists ps, linePolyIntersectXY g a true = Ok (Some ps) /\ In p ps.
  Proof.
    intros I D (t & T & P1) (u & U & P2). unfold linePolyIntersectXY. rewrite guard_ok, edges_all. destruct hits_ok as [hs E]. rewrite E. cbn [bind].
    pose proof (level_edges z a g LA G1 G2) as F. rewrite Forall_forall in F. destruct (F l I) as (PL & _).
    assert (Q : ll_params l g = Ok (Some (t, u))) by (apply ll_params_complete; [exact PL|exact D|rewrite <- P1, <- P2; reflexivity|rewrite <- P1, <- P2; reflexivity]).
    destruct (in_split l (lines_of a) I) as (pre & post & S).
    assert (H : In (t, u, t * linelength l + 0 + total_length pre) hs).
    { apply (hits_in _ _ _ _ _ _ E). exists pre, l, post. repeat split; auto. unfold edge_ok. rewrite (proj2 (Rleb_true 0 t)), (proj2 (Rleb_true t 1)) by lra.
      destruct (poly_closed a), (true && nil_b pre), (nil_b post); reflexivity. }
    set (q := map _ _). assert (M : In p q). { unfold q. apply in_map_iff. exists (t, u, t * linelength l + 0 + total_length pre). cbn [fst snd]. split; [auto|]. apply filter_In. split; [exact H|].
      cbn [fst snd negb orb]. unfold isin. rewrite !(proj2 (Rleb_true _ _)) by lra. reflexivity. }
    clearbody q. destruct q as [|x q]; [contradiction|]. exists (x :: q). split; [reflexivity|exact M].
  Qed.
  Hypotheses (GP : Forall (fun l => 0 < linelength l) (lines_of a)).
  Lemma ok_good : good_poly a.
  Proof. split; [lia|split; [|exact GP]]. eapply Forall_impl; [|exact LA]. cbv beta. tauto. Qed.
  Lemma mapdiv d (hs : list (R * R * R)) : 0 < d -> mapR (fun h => fdiv (snd h) d) hs = Ok (map (fun h => snd h / d) hs).
  Proof.
    intros D. induction hs as [|h hs IH]; [reflexivity|]. cbn [mapR map]. rewrite fdiv_ok by lra. cbn [bind]. rewrite IH. reflexivity.
  Qed.
  Lemma params_eq : exists hs, poly_hits (poly_closed a) (lines_of a) g 0 true = Ok hs /\
    linePolyIntersectXY_params g a = Ok (match hs with [] => None | _ => Some (map (fun h => snd (fst h)) hs, map (fun h => snd h / polylength a) hs) end).
  Proof.
    destruct hits_ok as [hs E]. exists hs. split; [exact E|]. unfold linePolyIntersectXY_params. rewrite guard_ok, edges_all, E. cbn [bind].
    rewrite mapdiv by exact (total_poly a ok_good). reflexivity.
  Qed.
  Lemma comb_maps (hs : list (R * R * R)) v o : In (v, o) (combine (map (fun h => snd (fst h)) hs) (map (fun h => snd h / polylength a) hs)) <->
    exists t s, In (t, v, s) hs /\ o = s / polylength a.
  Proof.
    induction hs as [|[[t u] s] hs IH]; [split; [intros []|intros (? & ? & [] & _)]|]. cbn [map combine In fst snd]. rewrite IH. split.
    - intros [K|(t' & s' & K & ->)]; [injection K as <- <-; exists t, s; auto|exists t', s'; auto].
    - intros (t' & s' & [K|K] & ->); [injection K as <- <- <-; left; reflexivity|right; exists t', s'; auto].
  Qed.
  Lemma params_sound vs us v o : (poly_closed a = true -> exists q, hd_error a = Some q /\ last a q = q) ->
    linePolyIntersectXY_params g a = Ok (Some (vs, us)) -> length vs = length us /\ (In (v, o) (combine vs us) -> samplepoly a o = Ok (Some (sampleline g v))).
  Proof.
    intros CL K. destruct params_eq as (hs & E & K'). rewrite K' in K. apply ok_inj in K. destruct hs as [|h hs'] eqn:EH; [discriminate|]. rewrite <- EH in *. injection K as <- <-. split; [rewrite !map_length; reflexivity|].
    intros I. apply comb_maps in I. destruct I as (t & s & I & ->). apply (hits_in _ _ _ _ _ _ E) in I. destruct I as (pre & l & post & K1 & K2 & K3 & ->).
    rewrite <- (edge_spot pre l post t v K1 K2). pose proof (total_poly a ok_good) as TP. change (tot linelength (lines_of a)) with (polylength a) in TP.
    assert (C : poly_closed a = false \/ poly_closed a = true) by (destruct (poly_closed a); auto).
    assert (ends : (0 <= t \/ (pre = [] /\ poly_closed a = false)) /\ (t <= 1 \/ (post = [] /\ poly_closed a = false))).
    { pose proof (lines_two a ltac:(lia)) as L2. unfold edge_ok in K3. destruct (poly_closed a) eqn:PC.
      - cbn [negb andb orb] in K3. rewrite !orb_false_r in K3. apply andb_prop in K3. rewrite !Rleb_true in K3. tauto.
      - destruct pre as [|x pre], post as [|y post]; cbn [nil_b negb andb orb] in K3; rewrite ?orb_false_r, ?andb_false_r in K3; cbn [orb] in K3.
        + exfalso. rewrite K1 in L2. cbn in L2. lia.
        + apply Rleb_true in K3. tauto.
        + apply Rleb_true in K3. tauto.
        + apply andb_prop in K3. rewrite !Rleb_true in K3. tauto. }
    apply (at_place a pre l post t).
    - exact ok_good.
    - exact K1.
    - field. lra.
    - apply ends.
    - apply ends.
    - destruct C as [C|C]; [left; exact C|right; right; apply CL, C].
  Qed.
  Lemma params_complete l t v : In l (lines_of a) -> epsilon <= ll_denom l g * ll_denom l g -> 0 <= t <= 1 -> sampleline l t = sampleline g v ->
    exists vs us, linePolyIntersectXY_params g a = Ok (Some (vs, us)) /\ In v vs.
  Proof.
    intros I D T P. destruct params_eq as (hs & E & ->). pose proof (level_edges z a g LA G1 G2) as F. rewrite Forall_forall in F. destruct (F l I) as (PL & _).
    assert (Q : ll_params l g = Ok (Some (t, v))) by (apply ll_params_complete; [exact PL|exact D|rewrite P; reflexivity|rewrite P; reflexivity]).
    destruct (in_split l (lines_of a) I) as (pre & post & S).
    assert (H : In (t, v, t * linelength l + 0 + total_length pre) hs).
    { apply (hits_in _ _ _ _ _ _ E). exists pre, l, post. repeat split; auto. unfold edge_ok. rewrite (proj2 (Rleb_true 0 t)), (proj2 (Rleb_true t 1)) by lra.
      destruct (poly_closed a), (true && nil_b pre), (nil_b post); reflexivity. }
    destruct hs as [|h hs]; [contradiction|]. do 2 eexists. split; [reflexivity|]. apply in_map_iff. eexists. split; [|exact H]. reflexivity.
  Qed.
End Line.

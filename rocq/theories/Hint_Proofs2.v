(** What add_bolt_pattern, add_datum, add_surface and add_keepout store. *)
From Coq Require Import ZArith String List Bool Lia.
From Verif Require Import Dict Json_Model Meta_Model Meta_Spec Meta_Proofs Meta_Proofs2 Hint_Spec.
Import ListNotations.
Open Scope list_scope.
Section H.
Variable H : host.
Lemma pair_split {A B} (a c : A) (b d : B) : (a, b) = (c, d) -> a = c /\ b = d.
Proof. intros E. split; [exact (f_equal fst E)|exact (f_equal snd E)]. Qed.
Lemma same_reads v c : csame v = Ok c -> reads H Same v c.
Proof. intros [= <-]. reflexivity. Qed.
Lemma text_reads v c : cstr H v = Ok c -> reads H Text v c.
Proof. intros [= <-]. reflexivity. Qed.
Lemma number_reads v c : cfloat H v = Ok c -> reads H Number v c.
Proof. unfold cfloat. intros E. apply bind_inv in E as (f & F & [= <-]). exists f. auto. Qed.
Lemma dict_reads v c : cdict v = Ok c -> reads H Dictionary v c.
Proof. destruct v; try discriminate. intros [= <-]. split; eauto. Qed.
Lemma three_reads v c : cvec H v = Ok c -> reads H Three v c.
Proof.
  unfold cvec. intros E. apply bind_inv in E as (l & L & E). destruct l as [|x [|y [|z [|w l]]]]; try discriminate.
  cbn [length Nat.eqb] in E. apply bind_inv in E as (fs & F & [= <-]). cbn [floats] in F.
  destruct (to_float H x) as [a|] eqn:A; [|discriminate]. destruct (to_float H y) as [b|] eqn:B; [|discriminate]. destruct (to_float H z) as [d|] eqn:D; [|discriminate].
  injection F as <-. exists x, y, z, a, b, d. repeat split; assumption.
Qed.
Lemma opt_stored k conv kw e e' r : (forall v c, conv v = Ok c -> reads H r v c) -> get k e = None -> opt_field k (arg k kw) conv e = Ok e' -> stored H kw e' k r.
Proof.
  intros R N E. assert (D : arg k kw = JNull \/ arg k kw <> JNull) by (destruct (arg k kw); auto; right; discriminate).
  destruct D as [D|D].
  - left. split; [exact D|]. rewrite D in E. apply opt_field_null in E. subst. exact N.
  - right. split; [exact D|]. destruct (opt_field_own _ _ _ _ _ E D) as (c & C & G). exists c. split; [apply R, C|exact G].
Qed.
Lemma stored_kept k kw e e' k' v conv r : stored H kw e k r -> opt_field k' v conv e = Ok e' -> k <> k' -> stored H kw e' k r.
Proof. intros S E N. unfold stored in *. rewrite (opt_field_get _ _ _ _ _ k E N). exact S. Qed.

Lemma datum_stored kw e : datum_entry H kw = Ok e -> forall k r, In (k, r) datum_options -> stored H kw e k r.
Proof.
  unfold datum_entry. intros E.
  apply bind_inv in E as (e1 & E1 & E). apply bind_inv in E as (e2 & E2 & E). apply bind_inv in E as (e3 & E3 & E). apply bind_inv in E as (e4 & E4 & E).
  intros k r I. unfold datum_options in I. cbn [In] in I. decompose [or] I; clear I; try contradiction; match goal with X : _ = (k, r) |- _ => apply pair_split in X as [<- <-] end.
  - do 4 (eapply stored_kept; [|eassumption|discriminate]). eapply opt_stored; [exact same_reads| |exact E1]. reflexivity.
  - do 3 (eapply stored_kept; [|eassumption|discriminate]). eapply opt_stored; [exact number_reads| |exact E2]. rewrite (opt_field_get _ _ _ _ _ (t "R_mm") E1) by discriminate. reflexivity.
  - do 2 (eapply stored_kept; [|eassumption|discriminate]). eapply opt_stored; [exact number_reads| |exact E3]. rewrite (opt_field_get _ _ _ _ _ (t "z_mm") E2), (opt_field_get _ _ _ _ _ (t "z_mm") E1) by discriminate. reflexivity.
  - eapply stored_kept; [|eassumption|discriminate]. eapply opt_stored; [exact three_reads| |exact E4]. rewrite (opt_field_get _ _ _ _ _ (t "origin_mm") E3), (opt_field_get _ _ _ _ _ (t "origin_mm") E2), (opt_field_get _ _ _ _ _ (t "origin_mm") E1) by discriminate. reflexivity.
  - eapply opt_stored; [exact three_reads| |exact E]. rewrite (opt_field_get _ _ _ _ _ (t "direction") E4), (opt_field_get _ _ _ _ _ (t "direction") E3), (opt_field_get _ _ _ _ _ (t "direction") E2), (opt_field_get _ _ _ _ _ (t "direction") E1) by discriminate. reflexivity.
Qed.
Lemma surface_stored kw e : surface_entry H kw = Ok e -> forall k r, In (k, r) surface_options -> stored H kw e k r.
Proof.
  unfold surface_entry. intros E. apply bind_inv in E as (e1 & E1 & E). apply bind_inv in E as (e2 & E2 & E).
  intros k r I. unfold surface_options in I. cbn [In] in I. decompose [or] I; clear I; try contradiction; match goal with X : _ = (k, r) |- _ => apply pair_split in X as [<- <-] end.
  - do 2 (eapply stored_kept; [|eassumption|discriminate]). eapply opt_stored; [exact text_reads| |exact E1]. reflexivity.
  - eapply stored_kept; [|eassumption|discriminate]. eapply opt_stored; [exact text_reads| |exact E2]. rewrite (opt_field_get _ _ _ _ _ (t "finish") E1) by discriminate. reflexivity.
  - eapply opt_stored; [exact number_reads| |exact E]. rewrite (opt_field_get _ _ _ _ _ (t "tolerance_mm") E2), (opt_field_get _ _ _ _ _ (t "tolerance_mm") E1) by discriminate. reflexivity.
Qed.
Lemma keepout_stored kw e : keepout_entry H kw = Ok e -> forall k r, In (k, r) keepout_options -> stored H kw e k r.
Proof.
  unfold keepout_entry. intros E. apply bind_inv in E as (e1 & E1 & E).
  intros k r I. unfold keepout_options in I. cbn [In] in I. decompose [or] I; clear I; try contradiction; match goal with X : _ = (k, r) |- _ => apply pair_split in X as [<- <-] end.
  - eapply stored_kept; [|eassumption|discriminate]. eapply opt_stored; [exact dict_reads| |exact E1]. reflexivity.
  - eapply opt_stored; [exact text_reads| |exact E]. rewrite (opt_field_get _ _ _ _ _ (t "reason") E1) by discriminate. reflexivity.
Qed.
Lemma fastener_built spec r : build_fastener H (JObj spec) = Ok r -> exists f, r = Some (JObj f) /\ fastener_of H spec f.
Proof.
  unfold build_fastener. intros E. set (d := match arg (t "designation") spec with JNull => [] | d => [(t "designation", JStr (to_str H d))] end) in E.
  cbv zeta in E. destruct (validate_enum (arg (t "thread") spec) _) eqn:T; [discriminate|]. destruct (validate_enum (arg (t "head") spec) _) eqn:W; [discriminate|].
  apply enum_ok in T, W. apply (f_equal (fun x => match x with Ok y => y | _ => None end)) in E. cbv beta iota in E. subst r. eexists. split; [reflexivity|].
  assert (D : get (t "designation") d = match arg (t "designation") spec with JNull => None | v => Some (JStr (to_str H v)) end /\ get (t "thread") d = None /\ get (t "head") d = None).
  { unfold d. destruct (arg (t "designation") spec); repeat split. }
  destruct D as (D1 & D2 & D3). unfold fastener_of. clearbody d. unfold given. rewrite <- D1. clear D1.
  destruct T as [-> |(s & -> & S)]; destruct W as [-> |(s' & -> & S')]; cbv beta iota zeta;
    repeat first [rewrite get_put_same | rewrite get_put_other by discriminate];
    (split; [reflexivity|]; split; [first [reflexivity|assumption]|]; split; [first [reflexivity|assumption]|]);
    split; first [left; reflexivity | right; eexists; split; [reflexivity|assumption]].
Qed.
Lemma bolt_stored kw e : bolt_entry H kw = Ok e -> (forall k r, In (k, r) bolt_options -> stored H kw e k r) /\
  ((arg (t "fastener") kw = JNull /\ get (t "fastener") e = None) \/ (exists spec f, arg (t "fastener") kw = JObj spec /\ get (t "fastener") e = Some (JObj f) /\ fastener_of H spec f)).
Proof.
  unfold bolt_entry. intros E.
  apply bind_inv in E as (r & R & E). apply bind_inv in E as (z & Z & E). apply bind_inv in E as (n & N & E). apply bind_inv in E as (e1 & E1 & E). apply bind_inv in E as (f & F & E).
  assert (G1 : get (t "fastener") e1 = None) by (rewrite (opt_field_get _ _ _ _ _ (t "fastener") E1) by discriminate; reflexivity).
  assert (G2 : get (t "tolerance_mm") e1 = None) by (rewrite (opt_field_get _ _ _ _ _ (t "tolerance_mm") E1) by discriminate; reflexivity).
  assert (S1 : stored H kw e1 (t "theta0_deg") Number) by (eapply opt_stored; [exact number_reads| |exact E1]; reflexivity).
  split.
  - intros k r0 I. unfold bolt_options in I. cbn [In] in I. decompose [or] I; clear I; try contradiction; match goal with X : _ = (k, r0) |- _ => apply pair_split in X as [<- <-] end.
    + eapply stored_kept; [|exact E|discriminate]. destruct f; [|exact S1]. unfold stored in *. rewrite get_put_other by discriminate. exact S1.
    + eapply opt_stored; [exact number_reads| |exact E]. destruct f; [rewrite get_put_other by discriminate|]; exact G2.
  - rewrite (opt_field_get _ _ _ _ _ (t "fastener") E) by discriminate.
    destruct (arg (t "fastener") kw) as [|b|i|x|s|l|spec|o] eqn:A; try discriminate F.
    + left. split; auto. injection F as <-. exact G1.
    + right. destruct (fastener_built spec f F) as (g & -> & O). exists spec, g. split; auto. split; auto. apply get_put_same.
Qed.
End H.

(** Graphs built in order: incidence and closure of what is stored. *)
From Coq Require Import String Reals List Bool ZArith Lia Permutation.
From Verif Require Import Dict Xform_Model Fig_Model ASurf_Model Brep_Model Brep_Spec Brep_Proofs.
Import ListNotations.
Open Scope list_scope.
Open Scope nat_scope.

Lemma sget_touch {V} k k0 (f : V -> V) d : sget k (touch k0 f d) = if String.eqb k k0 then option_map f (sget k d) else sget k d.
Proof.
  unfold touch. destruct (sget k0 d) as [v|] eqn:E; [rewrite sget_sset|]; destruct (String.eqb_spec k k0) as [->|]; auto; rewrite E; reflexivity.
Qed.
Lemma iter_swap {V} n (f : V -> V) v : Nat.iter n f (f v) = f (Nat.iter n f v).
Proof. induction n as [|n IH]; auto. change (f (Nat.iter n f (f v)) = f (f (Nat.iter n f v))). rewrite IH. reflexivity. Qed.
Lemma sget_touches {V} (f : V -> V) l : forall d k,
  sget k (fold_left (fun d k0 => touch k0 f d) l d) = option_map (Nat.iter (count_occ string_dec l k) f) (sget k d).
Proof.
  induction l as [|a l IH]; intros d k; cbn [fold_left count_occ]; [destruct (sget k d); reflexivity|].
  rewrite IH, sget_touch. destruct (string_dec a k) as [->|N].
  - rewrite String.eqb_refl. destruct (sget k d); cbn [option_map]; auto. f_equal. apply iter_swap.
  - assert (X : String.eqb k a = false) by (apply String.eqb_neq; congruence). rewrite X. reflexivity.
Qed.
Lemma keys_touch {V} k (f : V -> V) d : keys (touch k f d) = keys d.
Proof.
  unfold touch. destruct (sget k d) as [v|] eqn:E; auto. unfold sset. rewrite keys_set. unfold dmem. unfold sget in E. rewrite E. reflexivity.
Qed.
Lemma filed_sset {V} (id : V -> string) v d : filed id d -> filed id (sset (id v) v d).
Proof.
  intros [N I]. split; [apply sset_keys, N|]. intros k x Hin. apply in_sget in Hin; [|apply sset_keys, N]. rewrite sget_sset in Hin.
  destruct (String.eqb_spec k (id v)) as [->|]; [congruence|]. apply I. apply sget_in, Hin.
Qed.
Lemma filed_touch {V} (id : V -> string) k f d : (forall v, id (f v) = id v) -> filed id d -> filed id (touch k f d).
Proof.
  intros P [N I]. assert (N' : NoDup (keys (touch k f d))) by (rewrite keys_touch; exact N). split; auto.
  intros k' x Hin. apply in_sget in Hin; auto. rewrite sget_touch in Hin. destruct (String.eqb_spec k' k) as [->|].
  - destruct (sget k d) as [v|] eqn:E; [|discriminate]. injection Hin as <-. rewrite P. apply I, sget_in, E.
  - apply I, sget_in, Hin.
Qed.
Lemma filed_touches {V} (id : V -> string) f l : (forall v, id (f v) = id v) -> forall d, filed id d -> filed id (fold_left (fun d k0 => touch k0 f d) l d).
Proof. intros P. induction l; intros d F; cbn; auto. apply IHl, filed_touch; auto. Qed.
Lemma filed_get {V} (id : V -> string) k v d : filed id d -> sget k d = Some v -> id v = k.
Proof. intros [_ I] E. apply I, sget_in, E. Qed.
Lemma there_dec {V} (d : list (string * V)) k : there d k \/ sget k d = None.
Proof. unfold there. destruct (sget k d); eauto. Qed.
Lemma not_there {V} (d : list (string * V)) k : ~ there d k -> sget k d = None.
Proof. destruct (there_dec d k); tauto. Qed.

Record Inv (g : graph) : Prop := {
  I_filed : all_filed g;
  I_edges : forall k e, sget k (edges g) = Some e -> there (vertices g) (e_start e) /\ there (vertices g) (e_end e);
  I_trims : forall k t, sget k (trims g) = Some t -> there (edges g) (t_edge t);
  I_loops : forall k l tid, sget k (loops g) = Some l -> In tid (l_trims l) -> there (trims g) tid;
  I_faces : forall k f lid, sget k (faces g) = Some f -> In lid (f_loops f) -> there (loops g) lid;
  I_shells : forall k s fid, sget k (shells g) = Some s -> In fid (s_faces s) -> there (faces g) fid;
  I_solids : forall k s sid, sget k (solids g) = Some s -> In sid (so_shells s) -> there (shells g) sid;
  I_ve : forall k v, sget k (vertices g) = Some v -> NoDup (v_edges v) /\
    forall eid, In eid (v_edges v) <-> exists e, sget eid (edges g) = Some e /\ (e_start e = k \/ e_end e = k);
  I_ef : forall k e fid, sget k (edges g) = Some e -> count_occ string_dec (e_faces e) fid = face_count g k fid;
  I_fs : forall k f sid, sget k (faces g) = Some f -> f_shell f = Some sid -> exists s, sget sid (shells g) = Some s /\ In k (s_faces s);
  I_fs2 : forall sid s k f, sget sid (shells g) = Some s -> In k (s_faces s) -> sget k (faces g) = Some f -> f_shell f <> None;
  I_ss : forall k s id, sget k (shells g) = Some s -> s_solid s = Some id -> exists x, sget id (solids g) = Some x /\ In k (so_shells x);
  I_ss2 : forall id x k s, sget id (solids g) = Some x -> In k (so_shells x) -> sget k (shells g) = Some s -> s_solid s <> None;
  I_cl : forall k s, sget k (shells g) = Some s -> s_closed s <> None /\ (s_closed s = Some true -> closed_up g (s_faces s)) }.

Lemma face_count_same g g' eid fid :
  (forall k l tid, sget k (loops g) = Some l -> In tid (l_trims l) -> there (trims g) tid) ->
  (forall k f lid, sget k (faces g) = Some f -> In lid (f_loops f) -> there (loops g) lid) ->
  (forall k t, sget k (trims g) = Some t -> sget k (trims g') = Some t) ->
  (forall k l, sget k (loops g) = Some l -> sget k (loops g') = Some l) ->
  option_map f_loops (sget fid (faces g')) = option_map f_loops (sget fid (faces g)) ->
  face_count g' eid fid = face_count g eid fid.
Proof.
  intros HL HF ST SL SF. unfold face_count. destruct (sget fid (faces g)) as [f|] eqn:E; cbn [option_map] in SF.
  - destruct (sget fid (faces g')) as [f'|]; [|discriminate]. injection SF as ->. f_equal. apply map_ext_in. intros lid Hl. destruct (HF _ _ _ E Hl) as [l Ql].
    unfold loop_count. rewrite Ql, (SL _ _ Ql). f_equal. apply filter_ext_in. intros tid Ht. destruct (HL _ _ _ Ql Ht) as [t Qt].
    unfold on_edge. rewrite Qt, (ST _ _ Qt). reflexivity.
  - destruct (sget fid (faces g')); [discriminate|reflexivity].
Qed.
Lemma closed_same g g' fids : (forall eid fid, In fid fids -> face_count g' eid fid = face_count g eid fid) -> closed_up g fids -> closed_up g' fids.
Proof.
  intros S C eid. assert (X : shell_count g' eid fids = shell_count g eid fids); [|rewrite X; apply C].
  unfold shell_count. f_equal. apply map_ext_in. intros fid Hf. apply S. apply nodup_In in Hf. exact Hf.
Qed.
Lemma unused g k fid : Inv g -> sget k (edges g) = None -> face_count g k fid = 0.
Proof.
  intros I N. unfold face_count. destruct (sget fid (faces g)) as [f|]; auto. 
  assert (X : forall lid, loop_count g k lid = 0).
  { intros lid. unfold loop_count. destruct (sget lid (loops g)) as [l|]; auto. assert (Y : forall tid, on_edge g k tid = false).
    { intros tid. unfold on_edge. destruct (sget tid (trims g)) as [t|] eqn:Q; auto. apply String.eqb_neq. intros E. destruct (I_trims g I _ _ Q) as [e Qe]. rewrite E in Qe. congruence. }
    induction (l_trims l); cbn; auto. rewrite Y. auto. }
  induction (f_loops f) as [|a l IH]; cbn; auto. rewrite X. exact IH.
Qed.
Lemma set_new {V} k (v : V) d : sget k d = None -> forall k' x, sget k' d = Some x -> sget k' (sset k v d) = Some x.
Proof. intros N k' x E. rewrite sget_sset. destruct (String.eqb_spec k' k); congruence. Qed.
Lemma there_set {V} k (v : V) d k' : there d k' -> there (sset k v d) k'.
Proof. intros [x E]. unfold there. rewrite sget_sset. destruct (String.eqb k' k); eauto. Qed.
Lemma there_touch {V} k (f : V -> V) d k' : there (touch k f d) k' <-> there d k'.
Proof.
  unfold there. rewrite sget_touch. destruct (String.eqb k' k); [|tauto]. destruct (sget k' d); cbn; [split; eauto|]. tauto.
Qed.
Lemma there_touches {V} (f : V -> V) l d k' : there (fold_left (fun d k0 => touch k0 f d) l d) k' <-> there d k'.
Proof. unfold there. rewrite sget_touches. destruct (sget k' d); cbn; [split; eauto|tauto]. Qed.

Ltac parts := cbn [vertices edges trims loops faces shells solids] in *.

Ltac pts := cbn [vertices edges trims loops faces shells solids add_vertex add_edge add_trim add_loop add_face].
Lemma inv_empty : Inv empty.
Proof. constructor; parts; try (intros; discriminate). repeat split; try constructor; intros k v []. Qed.

Lemma inv_vertex v g : Inv g -> ~ there (vertices g) (v_id v) -> v_edges v = [] -> Inv (add_vertex v g).
Proof.
  intros I N Z. pose proof (not_there _ _ N) as Nn. destruct I as [F E T L FA SH SO VE EF FS FS2 SS SS2 CL]. constructor; unfold add_vertex; parts; auto.
  - destruct F as (F1 & F2 & F3 & F4 & F5 & F6 & F7). repeat split; try apply F2; try apply F3; try apply F4; try apply F5; try apply F6; try apply F7; apply filed_sset, F1.
  - intros k e Q. destruct (E k e Q). split; apply there_set; auto.
  - intros k x Q. rewrite sget_sset in Q. destruct (String.eqb_spec k (v_id v)) as [->|]; [|apply VE, Q]. injection Q as <-. rewrite Z. split; [constructor|].
    intros eid. split; [intros []|]. intros (e & Qe & X). destruct (E _ _ Qe) as [A B]. exfalso. apply N. destruct X as [<-|<-]; auto.
Qed.
Lemma inv_trim t g : Inv g -> ~ there (trims g) (t_id t) -> there (edges g) (t_edge t) -> Inv (add_trim t g).
Proof.
  intros I N Z. pose proof (not_there _ _ N) as Nn.
  assert (FC : forall eid fid, face_count (add_trim t g) eid fid = face_count g eid fid).
  { intros. apply face_count_same; auto; try apply I. pts. apply set_new, Nn. }
  destruct I as [F E T L FA SH SO VE EF FS FS2 SS SS2 CL]. constructor; auto.
  - destruct F as (F1 & F2 & F3 & F4 & F5 & F6 & F7). unfold all_filed. pts. auto 10 using (filed_sset t_id t).
  - pts. intros k x Q. rewrite sget_sset in Q. destruct (String.eqb k (t_id t)); [injection Q as <-; auto|eauto].
  - pts. intros k l tid Q Hin. apply there_set. eauto.
  - intros k e fid Q. rewrite FC. auto.
  - pts. intros k s Q. destruct (CL k s Q) as [A B]. split; auto. intros C. apply closed_same with g; auto.
Qed.
Lemma inv_loop l g : Inv g -> ~ there (loops g) (l_id l) -> (forall tid, In tid (l_trims l) -> there (trims g) tid) -> Inv (add_loop l g).
Proof.
  intros I N Z. pose proof (not_there _ _ N) as Nn.
  assert (FC : forall eid fid, face_count (add_loop l g) eid fid = face_count g eid fid).
  { intros. apply face_count_same; auto; try apply I. pts. apply set_new, Nn. }
  destruct I as [F E T L FA SH SO VE EF FS FS2 SS SS2 CL]. constructor; auto.
  - destruct F as (F1 & F2 & F3 & F4 & F5 & F6 & F7). unfold all_filed. pts. auto 10 using (filed_sset l_id l).
  - pts. intros k x tid Q. rewrite sget_sset in Q. destruct (String.eqb k (l_id l)); [injection Q as <-; auto|eauto].
  - pts. intros k f lid Q Hin. apply there_set. eauto.
  - intros k e fid Q. rewrite FC. auto.
  - pts. intros k s Q. destruct (CL k s Q) as [A B]. split; auto. intros C. apply closed_same with g; auto.
Qed.

Definition incident (e : edge) (k : string) : Prop := e_start e = k \/ e_end e = k.
Lemma add_edge_vertices e g k : sget k (vertices (add_edge e g)) =
  option_map (fun v => if in_dec string_dec k [e_start e; e_end e] then note_edge (e_id e) v else v) (sget k (vertices g)).
Proof.
  unfold add_edge. parts. destruct (String.eqb_spec (e_end e) (e_start e)) as [Q|Q]; rewrite ?sget_touch.
  - destruct (in_dec string_dec k [e_start e; e_end e]) as [Hin|Hin].
    + assert (k = e_start e) as -> by (destruct Hin as [X|[X|[]]]; congruence). rewrite String.eqb_refl. reflexivity.
    + assert (X : String.eqb k (e_start e) = false) by (apply String.eqb_neq; intros ->; apply Hin; left; reflexivity). rewrite X. destruct (sget k (vertices g)); reflexivity.
  - destruct (in_dec string_dec k [e_start e; e_end e]) as [Hin|Hin].
    + destruct Hin as [<-|[<-|[]]].
      * assert (X : String.eqb (e_start e) (e_end e) = false) by (apply String.eqb_neq; congruence). rewrite X, String.eqb_refl. reflexivity.
      * assert (X : String.eqb (e_end e) (e_start e) = false) by (apply String.eqb_neq; congruence). rewrite X, String.eqb_refl. reflexivity.
    + assert (X : String.eqb k (e_start e) = false) by (apply String.eqb_neq; intros ->; apply Hin; left; reflexivity).
      assert (Y : String.eqb k (e_end e) = false) by (apply String.eqb_neq; intros ->; apply Hin; right; left; reflexivity). rewrite X, Y. destruct (sget k (vertices g)); reflexivity.
Qed.
Lemma some_inj {A} (a b : A) : Some a = Some b -> a = b. Proof. congruence. Qed.
Lemma inv_edge e g : Inv g -> ~ there (edges g) (e_id e) -> e_faces e = [] -> there (vertices g) (e_start e) -> there (vertices g) (e_end e) -> Inv (add_edge e g).
Proof.
  intros I N Z Ps Pe. pose proof (not_there _ _ N) as Nn. pose proof (unused g (e_id e)) as Un.
  assert (FC : forall eid fid, face_count (add_edge e g) eid fid = face_count g eid fid) by (intros; apply face_count_same; auto; apply I).
  assert (TV : forall k, there (vertices g) k -> there (vertices (add_edge e g)) k).
  { intros k [v Q]. unfold there. rewrite add_edge_vertices, Q. cbn. eauto. }
  pose proof I as [F E T L FA SH SO VE EF FS FS2 SS SS2 CL]. constructor; auto.
  - destruct F as (F1 & F2 & F3 & F4 & F5 & F6 & F7). split.
    + unfold add_edge. parts. destruct (String.eqb _ _); repeat apply filed_touch; auto.
    + split; [apply filed_sset, F2|]. pts. auto.
  - intros k x Q. cbn [edges add_edge] in Q. rewrite sget_sset in Q. destruct (String.eqb k (e_id e)); [injection Q as <-; auto|]. destruct (E k x Q). auto.
  - pts. intros k x Q. apply there_set. eauto.
  - intros k v Q. rewrite add_edge_vertices in Q. destruct (sget k (vertices g)) as [v0|] eqn:Q0; [|discriminate]. cbn [option_map] in Q. apply some_inj in Q. subst v.
    destruct (VE k v0 Q0) as [Nd In0].
    assert (Fresh : ~ In (e_id e) (v_edges v0)) by (intros Hin; apply In0 in Hin as (x & Qx & _); congruence).
    destruct (in_dec string_dec k [e_start e; e_end e]) as [Hin|Hin].
    + cbn [note_edge v_edges]. split; [apply NoDup_app_snoc; auto|]. intros eid. rewrite in_app_iff, In0. cbn [edges add_edge In]. rewrite sget_sset. split.
      * intros [(x & Qx & X)|[<-|[]]]; [|rewrite String.eqb_refl; exists e; split; auto; destruct Hin as [X|[X|[]]]; auto].
        exists x. split; auto. destruct (String.eqb_spec eid (e_id e)); [congruence|auto].
      * destruct (String.eqb_spec eid (e_id e)) as [->|]; [right; auto|]. intros (x & Qx & X). left. eauto.
    + split; auto. intros eid. rewrite In0. cbn [edges add_edge]. rewrite sget_sset. destruct (String.eqb_spec eid (e_id e)) as [->|]; [|tauto].
      split; intros (x & Qx & X); [congruence|]. injection Qx as <-. exfalso. apply Hin. cbn. destruct X; auto.
  - intros k x fid Q. cbn [edges add_edge] in Q. rewrite sget_sset in Q. rewrite FC. destruct (String.eqb_spec k (e_id e)) as [->|]; [|auto].
    injection Q as <-. rewrite Z, (Un fid I Nn). reflexivity.
Qed.

Lemma iter_note fid n e : e_faces (Nat.iter n (note_face fid) e) = e_faces e ++ repeat fid n /\ e_start (Nat.iter n (note_face fid) e) = e_start e /\ e_end (Nat.iter n (note_face fid) e) = e_end e.
Proof.
  induction n as [|n (IH & A & B)]; cbn [Nat.iter nat_rect repeat]; [rewrite app_nil_r; auto|]. unfold Nat.iter in *. cbn [note_face e_faces e_start e_end]. rewrite IH, A, B, <- app_assoc. split; auto. f_equal.
  change (repeat fid n ++ [fid] = repeat fid (S n)). symmetry. apply (repeat_cons n fid).
Qed.
Lemma inv_face f g : Inv g -> ~ there (faces g) (f_id f) -> f_shell f = None -> (forall lid, In lid (f_loops f) -> there (loops g) lid) -> Inv (add_face f g).
Proof.
  intros I N Z P. pose proof (not_there _ _ N) as Nn.
  assert (FO : forall eid fid, fid <> f_id f -> face_count (add_face f g) eid fid = face_count g eid fid).
  { intros eid fid Ne. apply face_count_same; auto; try apply I. pts. rewrite sget_sset. apply String.eqb_neq in Ne. rewrite Ne. reflexivity. }
  assert (FN : forall eid, face_count (add_face f g) eid (f_id f) = count_occ string_dec (face_uses g f) eid).
  { intros eid. unfold face_count. cbn [faces add_face]. rewrite sget_sset, String.eqb_refl. unfold face_uses. rewrite count_flat_map. f_equal. apply map_ext.
    intros lid. rewrite loop_uses_count. reflexivity. }
  pose proof I as [F E T L FA SH SO VE EF FS FS2 SS SS2 CL].
  assert (GE : forall k, sget k (edges (add_face f g)) = option_map (Nat.iter (count_occ string_dec (face_uses g f) k) (note_face (f_id f))) (sget k (edges g))) by (intros; apply sget_touches).
  constructor; auto.
  - destruct F as (F1 & F2 & F3 & F4 & F5 & F6 & F7). unfold all_filed. split; auto. split; [apply filed_touches; auto|]. pts. auto 10 using (filed_sset f_id f).
  - intros k e Q. rewrite GE in Q. destruct (sget k (edges g)) as [e0|] eqn:Q0; [|discriminate]. injection Q as <-.
    destruct (iter_note (f_id f) (count_occ string_dec (face_uses g f) k) e0) as (_ & A & B). rewrite A, B. apply (E k e0 Q0).
  - pts. intros k t Q. apply there_touches. eauto.
  - pts. intros k x lid Q. rewrite sget_sset in Q. destruct (String.eqb k (f_id f)); [injection Q as <-; auto|eauto].
  - pts. intros k s fid Q Hin. apply there_set. eauto.
  - intros k v Q. destruct (VE k v Q) as [Nd In0]. split; auto. intros eid. rewrite In0, GE. destruct (sget eid (edges g)) as [e0|]; cbn [option_map].
    + destruct (iter_note (f_id f) (count_occ string_dec (face_uses g f) eid) e0) as (_ & A & B).
      split; intros (e & Qe & X); injection Qe as <-; eexists; (split; [reflexivity|]); [rewrite A, B; exact X|rewrite A, B in X; exact X].
    + split; intros (e & Qe & X); discriminate.
  - intros k e fid Q. rewrite GE in Q. destruct (sget k (edges g)) as [e0|] eqn:Q0; [|discriminate]. injection Q as <-.
    destruct (iter_note (f_id f) (count_occ string_dec (face_uses g f) k) e0) as (A & _). rewrite A, count_occ_app, (EF k e0 fid Q0).
    destruct (string_dec fid (f_id f)) as [->|Ne].
    + rewrite FN, count_occ_repeat_eq by reflexivity. unfold face_count. rewrite Nn. reflexivity.
    + rewrite FO, count_occ_repeat_neq by congruence. lia.
  - pts. intros k x sid Q. rewrite sget_sset in Q. destruct (String.eqb_spec k (f_id f)) as [->|]; [injection Q as <-; congruence|eauto].
  - pts. intros sid s k x Q Hin Qx. rewrite sget_sset in Qx. destruct (String.eqb_spec k (f_id f)) as [->|]; [|eauto]. exfalso. apply N. eauto.
  - pts. intros k s Q. destruct (CL k s Q) as [A B]. split; auto. intros C. apply closed_same with g; auto. intros eid fid Hin. apply FO. intros ->. apply N. eauto.
Qed.

Lemma iter_mark {V} (f : V -> V) n v : (forall v, f (f v) = f v) -> Nat.iter n f v = if Nat.eqb n 0 then v else f v.
Proof. intros P. induction n as [|n IH]; auto. change (Nat.iter (S n) f v) with (f (Nat.iter n f v)). rewrite IH. destruct n; cbn; auto. Qed.
Lemma sget_marks {V} (f : V -> V) l d k : (forall v, f (f v) = f v) ->
  sget k (fold_left (fun d k0 => touch k0 f d) l d) = option_map (fun v => if in_dec string_dec k l then f v else v) (sget k d).
Proof.
  intros P. rewrite sget_touches. destruct (sget k d) as [v|]; auto. cbn [option_map]. f_equal. rewrite iter_mark by auto.
  destruct (in_dec string_dec k l) as [Hin|Hin]; [apply (count_occ_In string_dec) in Hin|apply (count_occ_not_In string_dec) in Hin]; destruct (Nat.eqb_spec (count_occ string_dec l k) 0); auto; lia.
Qed.

Section Shells.
  Variables (order : list string -> list string).
  Hypothesis O : set_order order.
  Lemma inv_shell s g : Inv g -> ~ there (shells g) (s_id s) -> s_solid s = None -> (forall fid, In fid (s_faces s) -> there (faces g) fid) ->
    snd (add_shell order s true g) = Done -> Inv (fst (add_shell order s true g)).
  Proof.
    intros I N Zs P OK. pose proof (not_there _ _ N) as Nn.
    set (g1 := mkgraph (vertices g) (edges g) (trims g) (loops g) (fold_left (fun fs fid => touch fid (mark_face (s_id s)) fs) (s_faces s) (faces g)) (sset (s_id s) s (shells g)) (solids g)).
    assert (Idem : forall v, mark_face (s_id s) (mark_face (s_id s) v) = mark_face (s_id s) v) by reflexivity.
    assert (GF : forall k, sget k (faces g1) = option_map (fun v => if in_dec string_dec k (s_faces s) then mark_face (s_id s) v else v) (sget k (faces g))) by (intros; apply sget_marks, Idem).
    assert (G1 : sget (s_id s) (shells g1) = Some s) by (unfold g1; pts; rewrite sget_sset, String.eqb_refl; reflexivity).
    (* the shell as stored in the end *)
    assert (X : exists b, fst (add_shell order s true g) = with_shells g1 (sset (s_id s) (set_closed b s) (shells g)) /\ (b = true -> closed_up g1 (s_faces s))).
    { unfold add_shell in *. fold g1 in OK |- *. destruct (closure_ok order g1 (s_id s) s O G1) as (c & Ec & Hc & _). rewrite Ec in OK |- *.
      destruct (s_closed s) as [[|]|] eqn:Ecl.
      - cbn [snd fst] in OK |- *. destruct (c_closed c) eqn:Ecc; [|discriminate]. exists true. split; [|intros; apply Hc; reflexivity].
        unfold with_shells, g1. f_equal. f_equal. destruct s; cbn in *; subst; reflexivity.
      - exists false. split; [|discriminate]. unfold with_shells, g1. cbn [fst]. f_equal. f_equal. destruct s; cbn in *; subst; reflexivity.
      - exists (c_closed c). split; [|apply Hc]. cbn [fst]. unfold with_shells. f_equal. unfold touch, g1. cbn [shells]. rewrite sget_sset, String.eqb_refl.
        unfold sset. clear. induction (shells g) as [|[k v] d IH]; cbn [dset]; [rewrite String.eqb_refl; reflexivity|].
        destruct (String.eqb (s_id s) k) eqn:Q; cbn [dset]; rewrite Q; [reflexivity|f_equal; exact IH]. }
    destruct X as (b & -> & Hb). clear OK. set (s' := set_closed b s) in *. assert (Es : s_id s = s_id s') by reflexivity. rewrite Es.
    pose proof I as [F E T L FA SH SO VE EF FS FS2 SS SS2 CL].
    assert (FC1 : forall eid fid, face_count g1 eid fid = face_count g eid fid).
    { intros. apply face_count_same; auto. rewrite GF. destruct (sget fid (faces g)); cbn; auto. destruct (in_dec _ _ _); reflexivity. }
    assert (FC : forall eid fid, face_count (with_shells g1 (sset (s_id s') s' (shells g))) eid fid = face_count g eid fid) by exact FC1.
    unfold with_shells. constructor; auto; cbn [vertices edges trims loops faces shells solids g1].
    - destruct F as (F1 & F2 & F3 & F4 & F5 & F6 & F7). unfold all_filed. cbn [vertices edges trims loops faces shells solids g1].
      assert (Y : filed f_id (fold_left (fun fs fid => touch fid (mark_face (s_id s)) fs) (s_faces s) (faces g))) by (apply filed_touches; auto).
      auto 10 using (filed_sset s_id s').
    - intros k f lid Q. change (sget k (faces g1) = Some f) in Q. rewrite GF in Q. destruct (sget k (faces g)) as [f0|] eqn:Q0; [|discriminate]. injection Q as <-.
      intros Hin. apply (FA k f0 lid Q0). destruct (in_dec _ _ _); exact Hin.
    - intros k x fid Q Hin. apply there_touches. rewrite sget_sset in Q. destruct (String.eqb k (s_id s')); [injection Q as <-; apply P, Hin|eauto].
    - intros k x sid Q Hin. apply there_set. eauto.
    - intros k e fid Q. fold g1. rewrite FC. auto.
    - intros k f sid Q. change (sget k (faces g1) = Some f) in Q. rewrite GF in Q. destruct (sget k (faces g)) as [f0|] eqn:Q0; [|discriminate]. injection Q as <-.
      rewrite sget_sset. destruct (in_dec string_dec k (s_faces s)) as [Hin|Hin].
      + cbn [mark_face f_shell]. intros [= <-]. rewrite Es, String.eqb_refl. exists s'. auto.
      + intros Qs. destruct (FS k f0 sid Q0 Qs) as (x & Qx & Hx). destruct (String.eqb_spec sid (s_id s')) as [->|]; [congruence|]. eauto.
    - intros sid x k f Q Hin Qf. change (sget k (faces g1) = Some f) in Qf. rewrite GF in Qf. destruct (sget k (faces g)) as [f0|] eqn:Q0; [|discriminate]. injection Qf as <-.
      destruct (in_dec string_dec k (s_faces s)) as [Hi|Hi]; [discriminate|]. rewrite sget_sset in Q. destruct (String.eqb sid (s_id s')); [|eauto]. injection Q as <-. contradiction.
    - intros k x id Q Qs. rewrite sget_sset in Q. destruct (String.eqb k (s_id s')); [|eauto]. injection Q as <-. cbn in Qs. congruence.
    - intros id x k y Qx Hin Qy. rewrite sget_sset in Qy. destruct (String.eqb_spec k (s_id s')) as [->|]; [|eauto]. exfalso. apply N. rewrite Es. eauto.
    - intros k x Q. rewrite sget_sset in Q. destruct (String.eqb k (s_id s')).
      + injection Q as <-. split; [discriminate|]. cbn [s' set_closed s_closed s_faces]. intros [= ->]. apply closed_same with g1; auto.
      + destruct (CL k x Q) as [A B]. split; auto. intros C. apply closed_same with g; auto.
  Qed.
End Shells.
Section Solids.
  Variables (order : list string -> list string) (intersect : graph -> string -> string -> bool)
    (centre : graph -> string -> option vec) (contains : graph -> string -> vec -> bool).
  Lemma inv_solid s b g : Inv g -> ~ there (solids g) (so_id s) -> (forall sid, In sid (so_shells s) -> there (shells g) sid) ->
    Inv (fst (add_solid order intersect centre contains s b g)).
  Proof.
    intros I N P. pose proof (not_there _ _ N) as Nn. unfold add_solid. cbn [fst].
    assert (Idem : forall v, mark_shell (so_id s) (mark_shell (so_id s) v) = mark_shell (so_id s) v) by reflexivity.
    pose proof (fun k => sget_marks (mark_shell (so_id s)) (so_shells s) (shells g) k Idem) as GS.
    set (ss := fold_left _ _ _) in *.
    assert (FC : forall eid fid, face_count (mkgraph (vertices g) (edges g) (trims g) (loops g) (faces g) ss (sset (so_id s) s (solids g))) eid fid = face_count g eid fid) by reflexivity.
    pose proof I as [F E T L FA SH SO VE EF FS FS2 SS SS2 CL].
    constructor; auto; cbn [vertices edges trims loops faces shells solids].
    - destruct F as (F1 & F2 & F3 & F4 & F5 & F6 & F7). unfold all_filed. cbn [vertices edges trims loops faces shells solids].
      assert (filed s_id ss) by (apply filed_touches; auto). auto 10 using (filed_sset so_id s).
    - intros k x fid Q. rewrite GS in Q. destruct (sget k (shells g)) as [x0|] eqn:Q0; [|discriminate]. injection Q as <-. intros Hin. apply (SH k x0 fid Q0). destruct (in_dec _ _ _); exact Hin.
    - intros k x sid Q Hin. apply there_touches. rewrite sget_sset in Q. destruct (String.eqb k (so_id s)); [injection Q as <-; auto|eauto].
    - intros k f sid Q Qs. destruct (FS k f sid Q Qs) as (x & Qx & Hin). rewrite GS, Qx. cbn [option_map]. eexists; split; [reflexivity|]. destruct (in_dec _ _ _); exact Hin.
    - intros sid x k f Q Hin Qf. rewrite GS in Q. destruct (sget sid (shells g)) as [x0|] eqn:Q0; [|discriminate]. injection Q as <-. apply (FS2 sid x0 k f Q0); auto. destruct (in_dec _ _ _) in Hin; exact Hin.
    - intros k x id Q Qs. rewrite GS in Q. destruct (sget k (shells g)) as [x0|] eqn:Q0; [|discriminate]. injection Q as <-. rewrite sget_sset.
      destruct (in_dec string_dec k (so_shells s)) as [Hin|Hin].
      + cbn [mark_shell s_solid] in Qs. injection Qs as <-. rewrite String.eqb_refl. eauto.
      + destruct (SS k x0 id Q0 Qs) as (y & Qy & Hy). destruct (String.eqb_spec id (so_id s)) as [->|]; [congruence|]. eauto.
    - intros id x k y Qx Hin Qy. rewrite GS in Qy. destruct (sget k (shells g)) as [y0|] eqn:Q0; [|discriminate]. injection Qy as <-.
      destruct (in_dec string_dec k (so_shells s)) as [Hi|Hi]; [discriminate|]. rewrite sget_sset in Qx. destruct (String.eqb id (so_id s)); [injection Qx as <-; contradiction|eauto].
    - intros k x Q. rewrite GS in Q. destruct (sget k (shells g)) as [x0|] eqn:Q0; [|discriminate]. injection Q as <-. destruct (CL k x0 Q0) as [A B].
      destruct (in_dec _ _ _); cbn [mark_shell s_closed s_faces]; split; auto; intros C; apply closed_same with g; auto.
  Qed.
  Lemma built_inv g : set_order order -> built order intersect centre contains g -> Inv g.
  Proof.
    intros O B. induction B as [|g x B IH OK]; [exact inv_empty|]. destruct x as [v|e|t|l|f|s b|s b]; cbn [in_order] in OK; cbn [step].
    - apply inv_vertex; tauto.
    - apply inv_edge; tauto.
    - apply inv_trim; tauto.
    - apply inv_loop; tauto.
    - apply inv_face; tauto.
    - destruct OK as (A & Zs & P & -> & D). apply inv_shell; auto.
    - apply inv_solid; tauto.
  Qed.
End Solids.

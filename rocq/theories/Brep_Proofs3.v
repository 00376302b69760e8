(** Storing and reading back, and moving, topology graphs. *)
From Coq Require Import String Reals List Bool ZArith Lia Lra.
From Verif Require Kin_Model.
From Verif Require Import Dict Xform_Model Fig_Model Xform_Proofs ASurf_Model Brep_Model Brep_Spec Brep_Proofs Brep_Proofs2.
Import ListNotations.
Open Scope R_scope.
Open Scope list_scope.

(** Closure depends on the incidences only. *)
Definition ends (e : edge) : string * string := (e_start e, e_end e).
Section Same.
  Variables (order : list string -> list string) (g g' : graph).
  Hypotheses (ST : trims g' = trims g) (SL : loops g' = loops g)
    (SF : forall k, option_map f_loops (sget k (faces g')) = option_map f_loops (sget k (faces g)))
    (SE : forall k, option_map ends (sget k (edges g')) = option_map ends (sget k (edges g)))
    (SS : forall k, option_map s_faces (sget k (shells g')) = option_map s_faces (sget k (shells g))).
  Lemma loop_uses_same lid : loop_uses g' lid = loop_uses g lid.
  Proof. unfold loop_uses. rewrite SL, ST. reflexivity. Qed.
  Lemma use_face_same u fid : use_face g' u fid = use_face g u fid.
  Proof.
    unfold use_face. specialize (SF fid). destruct (sget fid (faces g')) as [f'|], (sget fid (faces g)) as [f|]; cbn [option_map] in SF; try discriminate; auto.
    injection SF as SF. f_equal. unfold face_uses. rewrite SF. apply flat_map_ext. exact loop_uses_same.
  Qed.
  Lemma fold_use_same l : forall u, fold_left (use_face g') l u = fold_left (use_face g) l u.
  Proof. induction l as [|a l IH]; intros u; cbn [fold_left]; auto. rewrite use_face_same. apply IH. Qed.
  Lemma vertices_same u : shell_vertices g' u = shell_vertices g u.
  Proof.
    unfold shell_vertices. f_equal. apply flat_map_ext. intros k. specialize (SE k). destruct (sget k (edges g')) as [e'|], (sget k (edges g)) as [e|]; cbn [option_map] in SE; try discriminate; auto.
    unfold ends in SE. injection SE as -> ->. reflexivity.
  Qed.
  Lemma closure_same sid : compute_shell_closure order g' sid = compute_shell_closure order g sid.
  Proof.
    unfold compute_shell_closure, shell_edge_usage. specialize (SS sid). destruct (sget sid (shells g')) as [s'|], (sget sid (shells g)) as [s|]; cbn [option_map] in SS; try discriminate; auto.
    injection SS as ->. rewrite fold_use_same, vertices_same. reflexivity.
  Qed.
End Same.

Lemma sget_mapv {V} (f : V -> V) k d : sget k (mapv f d) = option_map f (sget k d).
Proof. unfold mapv. induction d as [|[k' v] d IH]; cbn; auto. unfold sget in *. cbn [dget fst snd]. destruct (String.eqb k k'); auto. Qed.
Lemma keys_mapv {V} (f : V -> V) (d : list (string * V)) : keys (mapv f d) = keys d.
Proof. unfold keys, mapv. rewrite map_map. reflexivity. Qed.
Lemma mapv_id {V} (f : V -> V) (d : list (string * V)) : NoDup (keys d) -> (forall k v, sget k d = Some v -> f v = v) -> mapv f d = d.
Proof.
  intros N P. unfold mapv. rewrite <- (map_id d) at 2. apply map_ext_in. intros [k v] Hin. cbn. f_equal. apply (P k). apply in_sget; auto.
Qed.
Lemma sset_app {V} k (v : V) d : ~ In k (keys d) -> sset k v d = d ++ [(k, v)].
Proof.
  unfold sset. induction d as [|[k' v'] d IH]; cbn; auto. intros N. destruct (String.eqb_spec k k') as [->|]; [exfalso; apply N; auto|]. rewrite IH; auto.
Qed.
Lemma rebuild_ok {V} (id : V -> string) (f : V -> V) d : (forall v, id (f v) = id v) -> filed id d ->
  rebuild id (map (fun x => f (snd x)) d) = mapv f d.
Proof.
  intros P [N I]. unfold rebuild, mapv.
  assert (X : forall acc, (forall k, In k (keys acc) -> ~ In k (keys d)) -> fold_left (fun d v => sset (id v) v d) (map (fun x => f (snd x)) d) acc = acc ++ map (fun x => (fst x, f (snd x))) d).
  { induction d as [|[k v] d IH]; intros acc D; cbn [map fold_left]; [rewrite app_nil_r; reflexivity|]. cbn [fst snd].
    assert (Ek : id v = k) by (apply I; left; reflexivity). rewrite P, Ek. inversion N; subst. rewrite sset_app by (intros Hin; apply (D _ Hin); left; reflexivity).
    rewrite IH; auto.
    - rewrite <- app_assoc. reflexivity.
    - intros k' v' Hin. apply I. right. exact Hin.
    - intros k' Hin Hd. unfold keys in Hin. rewrite map_app, in_app_iff in Hin. destruct Hin as [Hin|[<-|[]]]; [apply (D _ Hin); right; exact Hd|contradiction]. }
  rewrite X; [reflexivity|]. intros k [].
Qed.
Lemma all_ok {A} (l : list (res A)) (xs : list A) : l = map Ok xs -> all l = Ok xs.
Proof. intros ->. induction xs as [|x xs IH]; cbn; auto. rewrite IH. reflexivity. Qed.
Lemma all_map {A B} (f : A -> res B) (h : A -> B) l : (forall x, In x l -> f x = Ok (h x)) -> all (map f l) = Ok (map h l).
Proof. intros P. apply all_ok. rewrite map_map. apply map_ext_in, P. Qed.

Lemma as_point_id p : is_point p -> as_point p = p.
Proof. destruct p as [x y z w]. unfold is_point, as_point, point. cbn. intros ->. reflexivity. Qed.
Lemma as_point_all ps : Forall is_point ps -> map as_point ps = ps.
Proof. induction 1; cbn; auto. rewrite as_point_id, IHForall by auto. reflexivity. Qed.
Lemma reload_curve_ok c : storable_curve c -> reload_curve c = Ok c.
Proof.
  destruct c as [|b|p o| |p ns|p a r t0 t1|ps k d w t0 t1|ps ns|k ns]; cbn [storable_curve reload_curve]; intros S; auto.
  - unfold arc_curve. rewrite !as_point_id; auto. rewrite as_point_id; auto.
  - destruct S.
  - rewrite as_point_id; auto.
  - destruct S as (P & W & M). unfold circle_curve. rewrite !as_point_id by (rewrite ?as_point_id; auto). f_equal. f_equal. unfold normalize_vector.
    replace (mag (as_point a)) with (mag a) by reflexivity. rewrite M. rewrite (proj2 (Rltb_false _ _)) by lra. destruct a as [x y z w]. unfold over, vect. cbn in W |- *. subst. f_equal; field.
  - destruct S as (P & K & W). unfold bspline_curve. rewrite !as_point_all by (rewrite ?as_point_all; auto). rewrite K, Nat.eqb_refl. cbn [negb].
    destruct w as [|w0 w]; [|reflexivity]. destruct ps; [reflexivity|discriminate].
  - rewrite as_point_all; auto.
Qed.

Definition plain_edge (e : edge) : edge := mkedge (e_id e) (e_curve e) (e_start e) (e_end e) true epsilon [] (e_tags e).
Definition plain_vertex (v : vertex) : vertex := mkvertex (v_id v) (v_loc v) (v_tol v) [] (v_tags v).
Definition plain_shell (s : shell) : shell := mkshell (s_id s) (s_faces s) "outer" (s_closed s) (s_solid s) (s_tags s).
Lemma reload_ok g : all_filed g -> storable g ->
  reload_graph g = Ok (mkgraph (mapv plain_vertex (vertices g)) (mapv plain_edge (edges g)) (trims g) (loops g) (faces g) (mapv plain_shell (shells g)) (solids g)).
Proof.
  intros (F1 & F2 & F3 & F4 & F5 & F6 & F7) (S1 & S2 & S3 & S5 & S6). unfold reload_graph.
  assert (IN : forall V (id : V -> string) (d : list (string * V)) x, filed id d -> In x d -> sget (fst x) d = Some (snd x)).
  { intros V id d [k v] [N _] Hin. apply in_sget; auto. }
  rewrite (all_map _ (fun x => plain_edge (snd x))).
  2: { intros x Hin. unfold reload_edge. rewrite (reload_curve_ok _ (S2 _ _ (IN _ _ _ _ F2 Hin))). reflexivity. }
  cbn [bind]. rewrite (all_map _ (fun x => (fun f : face => f) (snd x))).
  2: { intros x Hin. unfold reload_face. destruct (S5 _ _ (IN _ _ _ _ F5 Hin)) as [A B]. rewrite A. cbn [bind]. f_equal. destruct (snd x) as [fi fs fl fse fsh ft]. cbn in *. f_equal.
       destruct fsh as [[|]|]; auto. congruence. }
  cbn [bind]. rewrite (rebuild_ok f_id (fun f => f)), (rebuild_ok e_id plain_edge), (rebuild_ok t_id reload_trim), (rebuild_ok l_id reload_loop), (rebuild_ok so_id reload_solid), (rebuild_ok v_id reload_vertex), (rebuild_ok s_id reload_shell) by auto.
  f_equal. f_equal.
  - unfold mapv. apply map_ext_in. intros x Hin. f_equal. unfold reload_vertex, plain_vertex. rewrite as_point_id; auto. apply (S1 (fst x)), (IN _ _ _ _ F1 Hin).
  - apply mapv_id; [apply F3|]. intros k t Q. destruct t as [a b c u e]. pose proof (S3 _ _ Q) as U. unfold reload_trim. cbn in *. f_equal. destruct u as [[|]|]; auto. congruence.
  - apply mapv_id; [apply F4|]. intros k l _. destruct l; reflexivity.
  - apply mapv_id; [apply F5|]. reflexivity.
  - unfold mapv. apply map_ext_in. intros x Hin. f_equal. unfold reload_shell, plain_shell. pose proof (S6 _ _ (IN _ _ _ _ F6 Hin)) as U. f_equal. destruct (s_solid (snd x)) as [[|]|]; auto. congruence.
  - apply mapv_id; [apply F7|]. intros k s _. destruct s; reflexivity.
Qed.

(** What a history stores, and that it can be stored. *)
Lemma transform_keeps_closure order f g sid : compute_shell_closure order (transform_graph f g) sid = compute_shell_closure order g sid.
Proof.
  apply closure_same; auto; intros k; unfold transform_graph; cbn [faces edges shells]; rewrite ?sget_mapv; [destruct (sget k (faces g))|destruct (sget k (edges g))]; reflexivity.
Qed.

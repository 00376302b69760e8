(** Property theorems about yapcad.kinematics. *)
From Coq Require Import Reals List String.
From Verif Require Import Xform_Model Kin_Model Kin_Spec Kin_Proofs Kin_Proofs2 Kin_Proofs3 Kin_Proofs4.
Import ListNotations.
Open Scope string_scope.
Open Scope list_scope.

(** C31: after any history of careful operations (every operation except replacing
    a frame that a part hangs on), get_world_transform of an existing part returns
    the product of the transforms the chain currently holds along the path. *)
Theorem c31_world_is_current : forall K (c : chain K) n f, history c ->
  (exists p, get_part c n = Some p) ->
  exists c' w l, get_world_transform c n f = KOk (c', w) /\ path c n f l /\ w = product l.
Proof. exact @query_fresh. Qed.
Print Assumptions c31_world_is_current.
(** The path, hence the expected value, is unique. *)
Theorem c31_path_unique : forall K (c : chain K) n f l l', path c n f l -> path c n f l' -> l = l'.
Proof. intros K c n f l l' H. exact (path_fun c n f l H l'). Qed.
Print Assumptions c31_path_unique.
Theorem c31_unknown_part_raises : forall K (c : chain K) n f,
  get_part c n = None -> get_world_transform c n f = KValueError.
Proof. exact @query_unknown. Qed.
Print Assumptions c31_unknown_part_raises.
(** A query changes no part, joint or frame. *)
Theorem c31_query_changes_nothing : forall K (c : chain K) n f c' w,
  reachable c -> get_world_transform c n f = KOk (c', w) ->
  forall m, match get_part c m, get_part c' m with
            | Some p, Some p' => same_part p p' | None, None => True | _, _ => False end.
Proof. exact @query_keeps. Qed.
Print Assumptions c31_query_changes_nothing.
(** No operation exhausts the recursion bound, whatever the history. *)
Theorem c31_operations_terminate : forall K (c : chain K) o, reachable c -> exists c', apply_op c o = KOk c'.
Proof. exact @reachable_no_crash. Qed.
Print Assumptions c31_operations_terminate.
(** add_part succeeds exactly for a fresh name below an existing parent. *)
Theorem c31_add_part_errors : forall K (c : chain K) p, (exists c', add_part c p = KOk c') <->
  get_part c (p_name p) = None /\
  exists pq, get_part c (match p_parent p with Some q => q | None => DATUM end) = Some pq.
Proof. exact @add_part_errors. Qed.
Print Assumptions c31_add_part_errors.
(** set_joint_value sets that joint and leaves everything else alone. *)
Theorem c31_set_joint_frame : forall K (c : chain K) n v cl c',
  reachable c -> set_joint_value c n v cl = KOk c' ->
  exists p p', get_part c n = Some p /\ get_part c' n = Some p' /\
    p_joint p' = jset K (p_joint p) v cl /\
    p_parent p' = p_parent p /\ p_pframe p' = p_pframe p /\ p_frames p' = p_frames p /\
    forall m, m <> n -> match get_part c m, get_part c' m with
            | Some p, Some p' => same_part p p' | None, None => True | _, _ => False end.
Proof. exact @set_joint_frame. Qed.
Print Assumptions c31_set_joint_frame.
(** The chain after adding a new part holds exactly that part besides the old ones. *)
Theorem c31_add_part_effect : forall K (c : chain K) n q pf j fr m c', reachable c ->
  add_part c (KinematicPart K n q pf j fr m) = KOk c' ->
  (forall x p, get_part c x = Some p -> get_part c' x = Some p) /\
  (forall x, x <> n -> get_part c' x = get_part c x) /\
  exists p, get_part c' n = Some p /\ p_joint p = j /\
    p_parent p = Some (match q with Some q => q | None => DATUM end).
Proof.
  intros K c n q pf j fr m c' H E. destruct (reachable_good _ H) as [r S].
  destruct (add_part_ok c r _ c' S (mk_origin n q pf j fr m) E)
    as (_ & _ & _ & Old & _ & Hk & _ & q' & pq & p' & Q1 & Q2 & Q3 & Q4 & Q5 & Q6 & _).
  split; [exact Old|]. split.
  - intros x Hx. destruct (get_part c x) as [p|] eqn:Ex; [auto|].
    destruct (get_part c' x) as [p|] eqn:Ex'; auto. exfalso. apply get_key in Ex'. rewrite Hk in Ex'.
    apply in_app_or in Ex'. destruct Ex' as [Hi|[Hi|[]]]; [apply key_get in Hi; destruct Hi; congruence|].
    simpl in Hi. congruence.
  - exists p'. split; [exact Q3|]. split; [exact Q6|]. rewrite Q4. f_equal. exact Q1.
Qed.
Print Assumptions c31_add_part_effect.
Definition demo (K : kin) (ja jb : J K) (m : M K) (t : T K) (v : V K) : list (op K) :=
  [OAdd "A" None ORIGIN ja [("F", t)] m; OAdd "B" (Some "A") "F" jb [] m; OQuery "B" "ORIGIN";
   OSet "A" v true; OFrame "B" "TIP" t; OQuery "B" "TIP"].
(** A history with a query before and after a joint move; the expected product has
    the moved joint in it. *)
Example c31_nonvacuous : forall (K : kin) (ja jb : J K) (m : M K) (t : T K) (v : V K),
  exists c, history c /\ path c "B" "TIP" [jtf K (jset K ja v true); t; jtf K jb; t].
Proof.
  intros K ja jb m t v.
  destruct (run (KinematicChain K "m") (demo K ja jb m t v)) as [c| |] eqn:E; [|discriminate|discriminate].
  exists c. split.
  - eapply run_history; [apply h_new| |exact E]. unfold demo.
    do 4 (split; [exact I|]; let E := fresh in intros ? E; cvk in E; injection E as <-).
    split; [|intros; split; [exact I|intros; exact I]]. right. intros (x & p & Hp & Hq & Hf). cvk in Hp.
    repeat match type of Hp with (if ?b then _ else _) = _ => destruct b; [injection Hp as <-; discriminate|] end.
    discriminate.
  - cvk in E. injection E as <-.
    eapply path_part'; [discriminate|reflexivity|reflexivity| |].
    + eapply path_part'; [discriminate|reflexivity|reflexivity| |reflexivity]. eapply path_root. reflexivity.
    + reflexivity.
Qed.

(** C59 (refuted): replacing a frame a part hangs on, or assigning joint.value,
    leaves the old transform in the cache. *)
Theorem c59_replaced_frame_refuted : exists c c' w, reachable (K:=real_kin) c /\
  get_world_transform c "B" ORIGIN = KOk (c', w) /\
  exists l, path c "B" ORIGIN l /\ product (K:=real_kin) l <> w.
Proof. exact stale_frame. Qed.
Print Assumptions c59_replaced_frame_refuted.
Theorem c59_assigned_value_refuted : exists c c1 c' w, history (K:=real_kin) c /\
  assign_joint c "A" (slider 5) = KOk c1 /\ get_world_transform c1 "A" ORIGIN = KOk (c', w) /\
  exists l, path c1 "A" ORIGIN l /\ product (K:=real_kin) l <> w.
Proof. exact stale_value. Qed.
Print Assumptions c59_assigned_value_refuted.

(** C32: group laws of Transform (4x4 real matrices). *)
Theorem c32_assoc : forall a b c, t_mul (t_mul a b) c = t_mul a (t_mul b c).
Proof. exact t_mul_assoc. Qed.
Print Assumptions c32_assoc.
Theorem c32_identity : forall a, t_mul t_identity a = a /\ t_mul a t_identity = a.
Proof. intros a. exact (conj (t_mul_id_l a) (t_mul_id_r a)). Qed.
Print Assumptions c32_identity.
Theorem c32_inverse : forall a, rigid a -> t_mul a (t_inverse a) = t_identity /\ t_mul (t_inverse a) a = t_identity.
Proof. intros a H. exact (conj (inverse_r a H) (inverse_l a H)). Qed.
Print Assumptions c32_inverse.
Theorem c32_inverse_point : forall m p, rigid m ->
  t_point (t_inverse m) (t_point m p) = p /\ t_point m (t_point (t_inverse m) p) = p.
Proof. exact inverse_point. Qed.
Print Assumptions c32_inverse_point.
(** The product applies the right factor first. *)
Theorem c32_apply_product : forall a b p, row3 b = mkv 0 0 0 1 ->
  t_point (t_mul a b) p = t_point a (t_point b p) /\ t_vector (t_mul a b) p = t_vector a (t_vector b p).
Proof. intros a b p H. exact (conj (t_point_mul a b p H) (t_vector_mul a b p H)). Qed.
Print Assumptions c32_apply_product.
Theorem c32_isometry : forall m p q, rigid m -> dist3 (t_point m p) (t_point m q) = dist3 p q.
Proof. exact rigid_dist. Qed.
Print Assumptions c32_isometry.
(** Every constructor gives a rigid motion, and rigid motions are closed under
    composition, inversion and joints. *)
Theorem c32_constructors_rigid :
  rigid t_identity /\ (forall x y z, rigid (t_translation x y z)) /\
  (forall a, rigid (t_rot_x a)) /\ (forall a, rigid (t_rot_y a)) /\ (forall a, rigid (t_rot_z a)) /\
  (forall a b c, rigid (t_euler a b c)) /\ (forall ax a, rigid (t_axis_angle ax a)) /\
  (forall x y z a b c, rigid (t_position_rpy x y z a b c)).
Proof.
  exact (conj rigid_identity (conj rigid_translation (conj rigid_rot_x (conj rigid_rot_y
    (conj rigid_rot_z (conj rigid_euler (conj rigid_axis_angle rigid_rpy))))))).
Qed.
Print Assumptions c32_constructors_rigid.
Theorem c32_closed : forall a b, rigid a -> rigid b -> rigid (t_mul a b) /\ rigid (t_inverse a).
Proof. intros a b Ha Hb. exact (conj (rigid_mul a b Ha Hb) (inverse_rigid a Ha)). Qed.
Print Assumptions c32_closed.
Theorem c32_joint_rigid : forall j, rigid (j_base j) -> rigid (joint_transform j).
Proof. exact rigid_joint. Qed.
Print Assumptions c32_joint_rigid.
(** Rotations about one axis add up, the axis stays fixed, angle 0 is the identity;
    about a coordinate axis from_axis_angle is from_rotation_x/y/z. *)
Theorem c32_axis_angle_additive : forall ax a b,
  t_mul (t_axis_angle ax a) (t_axis_angle ax b) = t_axis_angle ax (a + b)%R.
Proof. exact axis_angle_add. Qed.
Print Assumptions c32_axis_angle_additive.
Theorem c32_axis_fixed : forall ax a, t_point (t_axis_angle ax a) ax = ax.
Proof. exact axis_angle_axis. Qed.
Print Assumptions c32_axis_fixed.
Theorem c32_zero_angle : forall ax, t_axis_angle ax 0 = t_identity.
Proof. exact axis_angle_zero. Qed.
Print Assumptions c32_zero_angle.
Theorem c32_coordinate_axes : forall a, t_axis_angle (1,0,0)%R a = t_rot_x a /\
  t_axis_angle (0,1,0)%R a = t_rot_y a /\ t_axis_angle (0,0,1)%R a = t_rot_z a.
Proof. intros a. exact (conj (axis_angle_x a) (conj (axis_angle_y a) (axis_angle_z a))). Qed.
Print Assumptions c32_coordinate_axes.
(** Angles are in degrees, rotations are counter-clockwise: 90 degrees about Z takes X to Y. *)
Theorem c32_quarter_turn : t_point (t_rot_z 90) (1,0,0)%R = (0,1,0)%R /\
  t_point (t_rot_x 90) (0,1,0)%R = (0,0,1)%R /\ t_point (t_rot_y 90) (0,0,1)%R = (1,0,0)%R.
Proof. exact quarter_turn. Qed.
Print Assumptions c32_quarter_turn.
Theorem c32_translation_moves : forall x y z p q r, t_point (t_translation x y z) (p,q,r) = (p + x, q + y, r + z)%R /\
  t_vector (t_translation x y z) (p,q,r) = (p, q, r).
Proof. exact translation_moves. Qed.
Print Assumptions c32_translation_moves.
Theorem c32_prismatic_distance : forall j p, j_type j = PRISMATIC -> rigid (j_base j) ->
  (tiny < norm3 (j_axis j))%R ->
  dist3 (t_point (joint_transform j) p) (t_point (j_base j) p) = Rabs (j_value j).
Proof. exact prismatic_dist. Qed.
Print Assumptions c32_prismatic_distance.
(** In a mechanism built from rigid parts every world transform is rigid, and the
    relative transform takes one world frame to the other. *)
Theorem c32_world_rigid : forall c n f c' w, history c -> all_rigid c ->
  get_world_transform c n f = KOk (c', w) -> rigid w.
Proof. exact world_rigid. Qed.
Print Assumptions c32_world_rigid.
Theorem c32_relative : forall c a b fa fb c' t, history c -> all_rigid c ->
  get_relative_transform c a b fa fb = KOk (c', t) ->
  exists c1 c2 wa wb, get_world_transform c a fa = KOk (c1, wa) /\
    get_world_transform c b fb = KOk (c2, wb) /\ t_mul wa t = wb.
Proof. exact relative_ok. Qed.
Print Assumptions c32_relative.
Example c32_nonvacuous : all_rigid (KinematicChain real_kin "m") /\ rigid (t_position_rpy 1 2 3 10 20 30).
Proof.
  split; [|apply rigid_rpy]. intros n p. unfold get_part, KinematicChain. cbn. destruct (String.eqb n DATUM); [|discriminate].
  intros E. injection E as <-. split; [exact rigid_identity|]. cbn. intros f t [H|[]]. injection H as <- <-. exact rigid_identity.
Qed.

(** C60 (refuted): extracting Euler angles and rebuilding does not give the rotation
    back; the JSON fields translation and rotation_xyz therefore describe another pose. *)
Theorem c60_euler_round_trip_refuted : exists rx ry rz, let m := t_euler rx ry rz in
  let '(a, b, c) := t_to_euler m in t_euler a b c <> m.
Proof. exact euler_wrong. Qed.
Print Assumptions c60_euler_round_trip_refuted.

(** C33 *)
Theorem c33_clamped_in_limits : forall c n v c', reachable (K:=real_kin) c ->
  set_joint_value c n v true = KOk c' ->
  exists p x, get_part c n = Some p /\ get_joint_value c' n = KOk x /\
    (j_min (p_joint p) <= j_max (p_joint p) -> j_min (p_joint p) <= x <= j_max (p_joint p))%R /\
    (j_min (p_joint p) <= v <= j_max (p_joint p) -> x = v)%R.
Proof.
  intros c n v c' H E. destruct (joint_value_after c n v true c' H E) as (p & Hp & Hv & _).
  exists p, (clamp_value (p_joint p) v). split; [exact Hp|]. split; [exact Hv|].
  split; [apply clamp_range|apply clamp_id].
Qed.
Print Assumptions c33_clamped_in_limits.
Theorem c33_clamp_nearest : forall j v x, (j_min j <= x <= j_max j)%R ->
  (Rabs (clamp_value j v - v) <= Rabs (x - v))%R.
Proof. exact clamp_nearest. Qed.
Print Assumptions c33_clamp_nearest.
Theorem c33_unclamped_exact : forall c n v c', reachable (K:=real_kin) c ->
  set_joint_value c n v false = KOk c' -> get_joint_value c' n = KOk v.
Proof. intros c n v c' H E. destruct (joint_value_after c n v false c' H E) as (p & _ & Hv & _). exact Hv. Qed.
Print Assumptions c33_unclamped_exact.
Theorem c33_other_joints_kept : forall c n v cl c' m, reachable (K:=real_kin) c ->
  set_joint_value c n v cl = KOk c' -> m <> n -> get_joint_value c' m = get_joint_value c m.
Proof. intros c n v cl c' m H E Hm. destruct (joint_value_after c n v cl c' H E) as (p & _ & _ & Hv). exact (Hv m Hm). Qed.
Print Assumptions c33_other_joints_kept.
Example c33_nonvacuous : clamp_value (slider 0) 500 = 180%R /\ clamp_value (slider 0) (-500) = (-180)%R /\
  clamp_value (slider 0) 7 = 7%R.
Proof. exact clamp_example. Qed.

(** C34: whatever order CPython iterates over sets in ([ord]), saving and loading a
    reachable chain succeeds and reproduces the name, every part (parent, frame,
    joint, frames, descriptive data) and every world transform. *)
Theorem c34_save_load : forall (c : chain real_kin) incl ord, reachable c -> set_order ord -> loadable c ->
  exists c1 d c2, to_dict c incl = KOk (c1, d) /\ from_dict ord d = KOk c2 /\
    c_name c2 = c_name c /\
    (forall n, n <> DATUM -> match get_part c n, get_part c2 n with
            | Some p, Some p' => same_part p p' | None, None => True | _, _ => False end) /\
    (forall n f l, n <> DATUM -> path c n f l -> exists c3, get_world_transform c2 n f = KOk (c3, product l)).
Proof. intros c incl ord H Ho HL. exact (save_load c incl ord H real_round_trips Ho HL). Qed.
Print Assumptions c34_save_load.
(** The same for any transforms and joints whose own JSON forms are faithful. *)
Theorem c34_save_load_generic : forall K (c : chain K) incl ord, reachable c -> round_trips K ->
  set_order ord -> loadable c ->
  exists c1 d c2, to_dict c incl = KOk (c1, d) /\ from_dict ord d = KOk c2 /\
    c_name c2 = c_name c /\
    (forall n, n <> DATUM -> match get_part c n, get_part c2 n with
            | Some p, Some p' => same_part p p' | None, None => True | _, _ => False end) /\
    (forall n f l, n <> DATUM -> path c n f l -> exists c3, get_world_transform c2 n f = KOk (c3, product l)).
Proof. exact @save_load. Qed.
Print Assumptions c34_save_load_generic.
Theorem c34_joint_round_trip : forall j, joint_from_dict (joint_to_dict j) = KOk j.
Proof. exact joint_rt. Qed.
Print Assumptions c34_joint_round_trip.
(** The exported world transforms are the current ones. *)
Theorem c34_exported_world : forall K (c : chain K), history c -> forall c1 d, to_dict c true = KOk (c1, d) ->
  forall n pd, In (n, pd) (cd_parts d) -> exists l, path c n ORIGIN l /\ d_world pd = Some (tser K (product l)).
Proof. exact @save_world. Qed.
Print Assumptions c34_exported_world.
Example c34_nonvacuous : forall (K : kin) (ja jb : J K) (m : M K) (t : T K) (v : V K),
  exists c : chain K, reachable c /\ loadable c /\ (exists p, get_part c "B" = Some p /\ p_pframe p = "F").
Proof.
  intros K ja jb m t v.
  destruct (run (KinematicChain K "m") (demo K ja jb m t v)) as [c| |] eqn:E; [|discriminate|discriminate].
  exists c. split; [eapply run_reachable; [constructor|exact E]|]. cvk in E. injection E as <-. split.
  - intros n p Hp. unfold get_part in Hp. cbn [c_parts Dict.dget] in Hp.
    repeat match type of Hp with (if ?b then _ else _) = _ => destruct b; [injection Hp as <-; split; cbn; [discriminate|try discriminate; reflexivity]|] end.
    discriminate.
  - eexists. split; [reflexivity|reflexivity].
Qed.

(** C61 (refuted): frames of the global datum are not saved, and a part whose parent
    has an empty name may be loaded before its parent. *)
Theorem c61_datum_frame_lost_refuted : exists c c1 d c2, reachable (K:=real_kin) c /\ to_dict c true = KOk (c1, d) /\
  (forall ord, set_order ord -> from_dict ord d = KOk c2) /\
  exists c3 c4 w w', get_world_transform c "A" ORIGIN = KOk (c3, w) /\
    get_world_transform c2 "A" ORIGIN = KOk (c4, w') /\ w <> w'.
Proof. exact bench_lost. Qed.
Print Assumptions c61_datum_frame_lost_refuted.
Theorem c61_empty_name_refuted : exists c c1 d ord, reachable (K:=real_kin) c /\ to_dict c false = KOk (c1, d) /\
  set_order ord /\ from_dict ord d = @KValueError (chain _).
Proof. exact empty_name_lost. Qed.
Print Assumptions c61_empty_name_refuted.

(** C62: tree queries *)
Theorem c62_descendants : forall K (c : chain K) n, reachable c -> (exists p, get_part c n = Some p) ->
  exists l, get_all_descendants (depth c) c n = KOk l /\ NoDup l /\ forall x, In x l <-> descendant c n x.
Proof. exact @descendants_reach. Qed.
Print Assumptions c62_descendants.
Theorem c62_chain_to_root : forall K (c : chain K) n, reachable c -> (exists p, get_part c n = Some p) ->
  (forall m p, get_part c m = Some p -> m <> "") ->
  exists l, get_chain_to_root c n = KOk l /\ hd_error l = Some n /\ last l n = DATUM /\
    forall x, In x l <-> x = n \/ descendant c x n.
Proof. exact @root_reach. Qed.
Print Assumptions c62_chain_to_root.
Example c62_nonvacuous : forall (K : kin) (ja jb : J K) (m : M K) (t : T K) (v : V K),
  exists c : chain K, reachable c /\ get_all_descendants (depth c) c DATUM = KOk ["A"; "B"] /\
    get_chain_to_root c "B" = KOk ["B"; "A"; DATUM].
Proof.
  intros K ja jb m t v.
  destruct (run (KinematicChain K "m") (demo K ja jb m t v)) as [c| |] eqn:E; [|discriminate|discriminate].
  exists c. split; [eapply run_reachable; [constructor|exact E]|]. cvk in E. injection E as <-. split; reflexivity.
Qed.

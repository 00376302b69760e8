(** C191-C198: saving geometry to a JSON document and loading it again. *)
From Coq Require Import Reals ZArith String List Bool Lia Lra.
From Verif Require Import Dict Xform_Model Json_Model Meta_Model Meta_Proofs GJson_Model GJson_Spec GJson_Proofs GJson_Proofs2 GJson_Proofs3 GJson_Proofs4.
Import ListNotations.
Open Scope list_scope.

(** C191: solids come back, in order, each with the triangles of its shell and of
    its voids and with its metadata, whatever else is in the list. *)
Theorem c191_solids : forall H uuid drawable w l w' doc,
  geometry_to_json H uuid drawable w l = GOk (w', doc) -> (forall e, In e doc -> entry_id e <> []) -> solids_in l <> [] ->
  exists ls, geometry_from_json doc = GOk (Solids ls) /\ Forall2 solid_back (solids_in l) ls.
Proof. exact solids_come_back. Qed.
Print Assumptions c191_solids.
(** Saving what yapCAD knows does not fail (a clash of ids is resolved in finitely
    many draws) and gives every entry a non-empty id. *)
Theorem c191_saves : forall H uuid drawable w l, injective uuid -> (forall n, uuid n <> []) ->
  (forall r, good_id (metas w r)) -> Forall (savable drawable) l ->
  exists w' doc, geometry_to_json H uuid drawable w l = GOk (w', doc) /\ (forall e, In e doc -> entry_id e <> []).
Proof. intros H uuid drawable w l U U0 G F. exact (saving_succeeds H uuid drawable U U0 w l G F). Qed.
Print Assumptions c191_saves.
(** A document with an empty id is rejected. *)
Theorem c191_empty_id : forall doc e, In e doc -> entry_id e = [] -> geometry_from_json doc = GRaise GValue.
Proof.
  intros doc e I0 E. unfold geometry_from_json.
  replace (existsb _ doc) with true; [reflexivity|]. symmetry. apply existsb_exists. exists e. split; [exact I0|]. now apply teq_spec.
Qed.
Print Assumptions c191_empty_id.

(** C192: without solids, the sketches come back element by element; without
    sketches too, the surfaces. *)
Theorem c192_sketches : forall H uuid drawable w l w' doc,
  geometry_to_json H uuid drawable w l = GOk (w', doc) -> (forall e, In e doc -> entry_id e <> []) ->
  solids_in l = [] -> sketches_in l <> [] -> Forall (fun g => g <> [] /\ Forall kept g) (sketches_in l) ->
  geometry_from_json doc = GOk (Sketches (map (flat_map expected) (sketches_in l))).
Proof. exact sketches_come_back. Qed.
Print Assumptions c192_sketches.
Theorem c192_surfaces : forall H uuid drawable w l w' doc,
  geometry_to_json H uuid drawable w l = GOk (w', doc) -> (forall e, In e doc -> entry_id e <> []) ->
  solids_in l = [] -> sketches_in l = [] -> NoDup (map (fun s => arg (t "entityId") (metas w' (g_meta s))) (surfaces_in l)) ->
  exists ls, geometry_from_json doc = GOk (Surfaces ls) /\ Forall2 same_mesh (surfaces_in l) ls.
Proof. exact surfaces_come_back. Qed.
Print Assumptions c192_surfaces.

(** C193: saving leaves metadata alone, except for ids and a missing or default layer. *)
Theorem c193_kept : forall H uuid drawable w l w' doc r k v,
  geometry_to_json H uuid drawable w l = GOk (w', doc) -> (forall x, In x l -> ~ In k (keys (snd x))) ->
  get k (metas w r) = Some v ->
  (k <> t "layer" /\ k <> t "entityId" /\ k <> t "id") \/ (k = t "layer" /\ truthy H v = true /\ v <> JStr (t "default")) ->
  get k (metas w' r) = Some v.
Proof.
  intros H uuid drawable w l w' doc r k v E N G S.
  apply (st_keeps _ _ _ _ _ (save_all_step H uuid drawable _ _ _ _ _ _ E)); [|exact S|exact G].
  intros I0. apply in_flat_map in I0. destruct I0 as (x & X & K). exact (N x X K).
Qed.
Print Assumptions c193_kept.
Theorem c193_nothing_added : forall H uuid drawable w l w' doc r k,
  geometry_to_json H uuid drawable w l = GOk (w', doc) -> (forall x, In x l -> ~ In k (keys (snd x))) ->
  get k (metas w r) = None -> ~ In k [t "layer"; t "entityId"; t "id"; t "schema"; t "tags"] -> get k (metas w' r) = None.
Proof.
  intros H uuid drawable w l w' doc r k E N G S.
  apply (st_none _ _ _ _ _ (save_all_step H uuid drawable _ _ _ _ _ _ E)); [| |exact G].
  - intros I0. apply in_flat_map in I0. destruct I0 as (x & X & K). exact (N x X K).
  - unfold new_key, plain_key. repeat split; intros ->; apply S; cbn; tauto.
Qed.
Print Assumptions c193_nothing_added.
(** Dictionaries of things that were not saved are not touched. *)
Theorem c193_others : forall H uuid drawable w l w' doc r,
  geometry_to_json H uuid drawable w l = GOk (w', doc) -> ~ In r (flat_map refs_of l) -> metas w' r = metas w r.
Proof. intros H uuid drawable w l w' doc r E. apply (st_frame _ _ _ _ _ (save_all_step H uuid drawable _ _ _ _ _ _ E)). Qed.
Print Assumptions c193_others.
(** The id of an entry is the entityId of its metadata, if no two things saved share
    a metadata dictionary. *)
Theorem c193_ids : forall H uuid drawable w l w' doc,
  geometry_to_json H uuid drawable w l = GOk (w', doc) -> NoDup (flat_map refs_of l) ->
  forall e, In e doc -> get (t "entityId") (entry_meta w' e) = Some (JStr (entry_id e)).
Proof. exact ids_agree. Qed.
Print Assumptions c193_ids.

(** * A host and documents to compute with *)
Definition demo : host := mkhost
  (fun v => match v with JFloat f => Ok f | JInt z => Ok z | _ => Err TypeErr end)
  (fun v => match v with JInt z => Ok z | _ => Err TypeErr end)
  (fun v => match v with JStr s => s | _ => t "?" end) (fun f => (f =? 0)%Z) (fun s => s) (fun c => (c =? 32)%Z).
Definition ids (n : nat) : text := t "u" ++ [Z.of_nat n].
Lemma ids_injective : injective ids.
Proof. intros m n E. unfold ids in E. apply app_inv_head in E. injection E as E. apply Nat2Z.inj. exact E. Qed.
Lemma ids_nonempty n : ids n <> []. Proof. discriminate. Qed.
Definition blank : world := mkw (fun _ => []) 0.
Section Demo.
(** any coordinates *)
Variables (o0 px py up : list R) (p0 p1 p2 : vec).
Definition patch (m : nat) : gsurf := mkgs [o0; px; py] [up; up; up] [[0; 1; 2]]%Z [0; 1; 2]%Z [] m.
Definition block : gsolid := mkgsol [Some (patch 1); None; Some (patch 2)] [VIter [Some (patch 3)]] [] 0.
Definition sheet : list gelem := [GLine p0 p1; GPoly [p0; p1; p2]].
Definition yes : gelem -> bool := fun _ => true.

Example c191_nonvacuous : forall w' doc, geometry_to_json demo ids yes blank [(TSolid block, []); (TSketch sheet, []); (TSurface (patch 4), [])] = GOk (w', doc) ->
  (forall e, In e doc -> entry_id e <> []) /\ length doc = 6%nat /\
  geometry_from_json doc = GOk (Solids [mkls [mkgs [o0; px; py] [up; up; up] [[0; 1; 2]]%Z [] [] 1; mkgs [o0; px; py] [up; up; up] [[0; 1; 2]]%Z [] [] 2]
                                   [[mkgs [o0; px; py] [up; up; up] [[0; 1; 2]]%Z [] [] 3]] 0]).
Proof.
  intros w' doc E. vm_compute in E. injection E as <- <-. split; [|split].
  - intros e I0. cbn in I0. repeat (destruct I0 as [<-|I0]; [discriminate|]). destruct I0.
  - reflexivity.
  - reflexivity.
Qed.
Hypothesis P : in_plane p0 /\ in_plane p1 /\ in_plane p2.
Example c191_savable : Forall (savable yes) [(TSolid block, [(t "layer", JStr (t "walls"))]); (TSketch sheet, []); (TSurface (patch 4), [])] /\
  (forall r, good_id (metas blank r)).
Proof.
  split; [|intros r; exact I]. repeat constructor; cbn; try tauto; try lia; try discriminate; apply P.
Qed.
(** Two solids with the same surface object: the second use gets a new id. *)
Example c191_shared : exists w' doc, geometry_to_json demo ids yes blank
    [(TSolid (mkgsol [Some (patch 1)] [] [] 0), []); (TSolid (mkgsol [Some (patch 1)] [] [] 2), [])] = GOk (w', doc) /\
  exists a b, geometry_from_json doc = GOk (Solids [a; b]) /\ length (l_shell a) = 1%nat /\ length (l_shell b) = 1%nat.
Proof. do 2 eexists. split; [vm_compute; reflexivity|]. do 2 eexists. split; [vm_compute; reflexivity|]. now split. Qed.
Example c192_nonvacuous : exists w' doc, geometry_to_json demo ids yes blank [(TSketch sheet, []); (TSurface (patch 4), [])] = GOk (w', doc) /\
  (forall e, In e doc -> entry_id e <> []) /\ Forall (fun g => g <> [] /\ Forall kept g) [sheet] /\
  map (flat_map expected) [sheet] = [[GLine p0 p1; GLine p0 p1; GLine p1 p2]].
Proof.
  do 2 eexists. split; [vm_compute; reflexivity|]. split; [|split; [|reflexivity]].
  - intros e I0. cbn in I0. repeat (destruct I0 as [<-|I0]; [discriminate|]). destruct I0.
  - repeat constructor; cbn; try lia; try discriminate; apply P.
Qed.
Example c192_arc_kept : kept (GArc (mkv 0 0 0 1) 2 0 90 (-1) (Some (mkv 0 0 1 1))) /\ kept (GEllipse (mkv 0 0 0 1) 2 1 0 0 360 (mkv 0 0 1 0)).
Proof.
  assert (M : mag (mkv 0 0 1 1) = 1%R).
  { unfold mag. transitivity (sqrt 1); [f_equal; cbn; ring|apply sqrt_1]. }
  cbn. rewrite M. split; repeat split; try lra. rewrite Rminus_diag_eq by reflexivity. rewrite Rabs_R0. unfold epsilon. lra.
Qed.
Example c192_surfaces_nonvacuous : exists w' doc, geometry_to_json demo ids yes blank [(TSurface (patch 4), []); (TSurface (patch 5), [])] = GOk (w', doc) /\
  (forall e, In e doc -> entry_id e <> []) /\ NoDup (map (fun s => arg (t "entityId") (metas w' (g_meta s))) [patch 4; patch 5]).
Proof.
  do 2 eexists. split; [vm_compute; reflexivity|]. split.
  - intros e I0. cbn in I0. repeat (destruct I0 as [<-|I0]; [discriminate|]). destruct I0.
  - vm_compute. constructor; [|constructor; [intros []|constructor]]. intros [X|[]]. discriminate X.
Qed.
Definition marked : world := mkw (fun r => match r with 1%nat => [(t "finish", JStr (t "anodised")); (t "layer", JStr (t "skin"))] | _ => [] end) 0.
Example c193_nonvacuous : exists w' doc, geometry_to_json demo ids yes marked [(TSolid block, [])] = GOk (w', doc) /\
  get (t "finish") (metas w' 1%nat) = Some (JStr (t "anodised")) /\ get (t "layer") (metas w' 1%nat) = Some (JStr (t "skin")) /\
  NoDup (flat_map refs_of [(TSolid block, [])]).
Proof.
  do 2 eexists. split; [vm_compute; reflexivity|]. split; [reflexivity|]. split; [reflexivity|].
  cbn. repeat constructor; cbn; intuition discriminate.
Qed.

End Demo.
Definition o0 : list R := [0%R; 0%R; 0%R; 1%R].
Definition px : list R := [1%R; 0%R; 0%R; 1%R].
Definition py : list R := [0%R; 1%R; 0%R; 1%R].
Definition up : list R := [0%R; 0%R; 1%R; 0%R].
Definition tri := patch o0 px py up.

(** C194 (refuted): boundaries and holes of surfaces are not saved. *)
Theorem c194_refuted : ~ (forall H uuid drawable w l w' doc, injective uuid -> (forall n, uuid n <> []) ->
  (forall r, good_id (metas w r)) -> Forall (savable drawable) l -> solids_in l = [] -> sketches_in l = [] ->
  geometry_to_json H uuid drawable w l = GOk (w', doc) -> 
  exists ls, geometry_from_json doc = GOk (Surfaces ls) /\ map g_bnd ls = map g_bnd (surfaces_in l)).
Proof.
  intros A. destruct (geometry_to_json demo ids yes blank [(TSurface (tri 1), [])]) as [[w' doc]|] eqn:E; [|discriminate].
  destruct (A demo ids yes blank [(TSurface (tri 1), [])] w' doc ids_injective ids_nonempty) as (ls & L & B); [intros r; exact I| |reflexivity|reflexivity|exact E|].
  - repeat constructor.
  - vm_compute in E. injection E as <- <-. vm_compute in L. injection L as <-. discriminate B.
Qed.
Print Assumptions c194_refuted.
(** Every loaded surface has neither. *)
Theorem c194_always : forall doc ls, geometry_from_json doc = GOk (Surfaces ls) -> Forall (fun s => g_bnd s = [] /\ g_holes s = []) ls.
Proof.
  intros doc ls. unfold geometry_from_json. destruct (existsb _ _); [discriminate|]. cbn zeta.
  destruct (gmap (load_solid doc _) doc) as [sol|]; cbn [gbind]; [|discriminate]. destruct (concat sol); [|discriminate].
  destruct (gmap load_sketch doc) as [sk|]; cbn [gbind]; [|discriminate]. destruct (concat sk); [|discriminate].
  intros E. assert (ls = map snd (listed doc [])) as -> by congruence.
  assert (G : forall es s, Forall (fun kv : text * gsurf => g_bnd (snd kv) = [] /\ g_holes (snd kv) = []) s -> Forall (fun kv : text * gsurf => g_bnd (snd kv) = [] /\ g_holes (snd kv) = []) (listed es s)).
  { induction es as [|e es IH]; intros s F; cbn [listed]; [exact F|]. apply IH. destruct e; try exact F.
    rewrite Forall_forall in F |- *. intros (k, v) I0. apply in_dset in I0. destruct I0 as [[-> ->]|I0]; [now split|exact (F _ I0)]. }
  specialize (G doc [] (Forall_nil _)). rewrite Forall_forall in G |- *. intros s I0. apply in_map_iff in I0. destruct I0 as (kv & <- & K). exact (G kv K).
Qed.
Print Assumptions c194_always.

(** C195 (refuted): the material and construction lists of a solid are not saved: the
    material list is taken for a list of voids. *)
Definition made_of (m : list void) : gsolid := mkgsol [Some (tri 1)] m [] 0.
Theorem c195_refuted :
  (* a name is taken for a void without surfaces *)
  (exists w' doc a, geometry_to_json demo ids yes blank [(TSolid (made_of [VIter [None; None; None; None; None]]), [])] = GOk (w', doc) /\
     geometry_from_json doc = GOk (Solids [a]) /\ l_voids a = [[]]) /\
  (* a number cannot be saved *)
  geometry_to_json demo ids yes blank [(TSolid (made_of [VAtom]), [])] = GRaise GType /\
  (* construction data leaves no trace *)
  forall H uuid drawable w l sh m c1 c2 d r o,
    geometry_to_json H uuid drawable w ((TSolid (mkgsol sh m c1 d), o) :: l) = GOk r ->
    geometry_to_json H uuid drawable w ((TSolid (mkgsol sh m c2 d), o) :: l) = GOk r.
Proof. split; [do 3 eexists; split; [vm_compute; reflexivity|split; vm_compute; reflexivity]|]. split; [reflexivity|]. intros. exact H0. Qed.
Print Assumptions c195_refuted.

(** C196 (refuted): not everything saved is loaded. *)
Definition copied : world := mkw (fun r => match r with 1%nat | 2%nat => [(t "entityId", JStr (t "a"))] | _ => [] end) 0.
Definition moved : gsurf := mkgs [px; px; py] [up; up; up] [[0; 1; 2]]%Z [] [] 2.
Theorem c196_refuted :
  (* a sketch and a surface beside a solid *)
  (exists w' doc a, geometry_to_json demo ids yes blank [(TSolid (block o0 px py up), []); (TSketch [GLine (mkv 0 0 0 1) (mkv 1 0 0 1)], []); (TSurface (tri 4), [])] = GOk (w', doc) /\
     geometry_from_json doc = GOk (Solids [a])) /\
  (* a surface and its moved copy, whose metadata is a copy too *)
  (exists w' doc a, geometry_to_json demo ids yes copied [(TSurface (tri 1), []); (TSurface moved, [])] = GOk (w', doc) /\
     geometry_from_json doc = GOk (Surfaces [a]) /\ g_verts a = g_verts (tri 1)).
Proof. split; do 3 eexists; (split; [vm_compute; reflexivity|]); [vm_compute; reflexivity|split; vm_compute; reflexivity]. Qed.
Print Assumptions c196_refuted.

(** C197 (refuted): sketch geometry that changes or fails. *)
Theorem c197_refuted : forall H uuid drawable w,
  (* z is dropped *)
  (forall w' doc, geometry_to_json H uuid drawable w [(TSketch [GLine (mkv 0 0 5 1) (mkv 1 0 5 1)], [])] = GOk (w', doc) -> uuid (made w) <> [] ->
     geometry_from_json doc = GOk (Sketches [[GLine (mkv 0 0 0 1) (mkv 1 0 0 1)]])) /\
  (* a reversed arc comes back forwards *)
  (forall w' doc, geometry_to_json H uuid drawable w [(TSketch [GArc (mkv 0 0 0 1) 1 0 90 (-2) None], [])] = GOk (w', doc) -> uuid (made w) <> [] ->
     geometry_from_json doc = GOk (Sketches [[GArc (mkv 0 0 0 1) 1 0 90 (-1) None]])) /\
  (* points disappear: nothing is left of a sketch of points *)
  (forall w' doc, geometry_to_json H uuid drawable w [(TSketch [GPoint (mkv 1 2 3 1)], [])] = GOk (w', doc) -> uuid (made w) <> [] ->
     geometry_from_json doc = GOk (Surfaces [])) /\
  (* a list in the list cannot be saved *)
  geometry_to_json H uuid drawable w [(TSketch [GNested [GLine (mkv 0 0 0 1) (mkv 1 0 0 1); GLine (mkv 1 0 0 1) (mkv 1 1 0 1)]], [])] = GRaise GType.
Proof.
  assert (NE : forall u d ps, u <> [] -> existsb (fun e => teq (entry_id e) []) [ESketch u d ps] = false).
  { intros u d ps N. cbn [existsb entry_id]. now rewrite (teq_neq _ _ N). }
  intros H uuid drawable w. split; [|split; [|split]].
  - intros w' doc E N. unfold geometry_to_json in E. cbn [save_all] in E. unfold serialize_sketch in E. cbn [gmap primitive gbind existsb has_empty orb] in E.
    destruct (negb _); [discriminate|].
    match type of E with context [id_text ?d] => assert (X : id_text d = GOk (uuid (made w))) by reflexivity end. rewrite X in E. cbn [gbind concat app map] in E.
    match type of E with GOk (_, ?d) = _ => assert (doc = d) as -> by congruence end.
    unfold geometry_from_json. cbn [app map]. rewrite NE by exact N. reflexivity.
  - intros w' doc E N. unfold geometry_to_json in E. cbn [save_all] in E. unfold serialize_sketch in E. cbn [gmap primitive gbind existsb has_empty orb] in E.
    assert (Q : (Reqb 0 0 && Reqb 90 360)%bool = false).
    { unfold Reqb at 2. destruct (Req_EM_T 90 360); [lra|]. apply andb_false_r. }
    rewrite Q in E. cbn [gbind] in E.
    destruct (negb _); [discriminate|].
    match type of E with context [id_text ?d] => assert (X : id_text d = GOk (uuid (made w))) by reflexivity end. rewrite X in E. cbn [gbind concat app map] in E.
    match type of E with GOk (_, ?d) = _ => assert (doc = d) as -> by congruence end.
    unfold geometry_from_json. cbn [app map]. rewrite NE by exact N.
    cbn [listed gmap load_solid gbind concat app load_sketch element].
    rewrite arc_back; [reflexivity|cbn; lra|lra|exact I].
  - intros w' doc E N. unfold geometry_to_json in E. cbn [save_all] in E. unfold serialize_sketch in E. cbn [gmap primitive gbind existsb has_empty orb] in E.
    destruct (negb _); [discriminate|].
    match type of E with context [id_text ?d] => assert (X : id_text d = GOk (uuid (made w))) by reflexivity end. rewrite X in E. cbn [gbind concat app map] in E.
    match type of E with GOk (_, ?d) = _ => assert (doc = d) as -> by congruence end.
    unfold geometry_from_json. cbn [app map]. rewrite NE by exact N. reflexivity.
  - reflexivity.
Qed.
Print Assumptions c197_refuted.

(** C198 (refuted): saving changes what is saved.  The layer of a solid is written
    into its surfaces for good, and a surface used twice is given the id of its last
    use, so the entry of the first use no longer names its metadata. *)
Definition layered : world := mkw (fun r => match r with 0%nat => [(t "layer", JStr (t "A"))] | _ => [] end) 0.
Theorem c198_refuted :
  (exists w' doc w'' doc', geometry_to_json demo ids yes layered [(TSolid (mkgsol [Some (tri 1)] [] [] 0), [])] = GOk (w', doc) /\
     get (t "layer") (metas layered 1%nat) = None /\ get (t "layer") (metas w' 1%nat) = Some (JStr (t "A")) /\
     (* the solid moves to layer B and is saved again: the surface stays on A *)
     geometry_to_json demo ids yes (meta_put w' 0%nat (set_layer demo (metas w' 0%nat) (JStr (t "B")))) [(TSolid (mkgsol [Some (tri 1)] [] [] 0), [])] = GOk (w'', doc') /\
     get (t "layer") (metas w'' 0%nat) = Some (JStr (t "B")) /\ get (t "layer") (metas w'' 1%nat) = Some (JStr (t "A"))) /\
  (exists w' doc e, geometry_to_json demo ids yes blank
     [(TSolid (mkgsol [Some (tri 1)] [] [] 0), []); (TSolid (mkgsol [Some (tri 1)] [] [] 2), [])] = GOk (w', doc) /\
     In e doc /\ get (t "entityId") (entry_meta w' e) <> Some (JStr (entry_id e))).
Proof.
  split.
  - do 4 eexists. split; [vm_compute; reflexivity|]. repeat split; vm_compute; reflexivity.
  - do 2 eexists. eexists (ESurf _ _ _ _ _). split; [vm_compute; reflexivity|]. split; [right; right; left; reflexivity|].
    vm_compute. discriminate.
Qed.
Print Assumptions c198_refuted.

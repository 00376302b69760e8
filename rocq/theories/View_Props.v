(** C355-C358: the viewer's configuration. *)
From Coq Require Import ZArith String List Bool.
From Verif Require Import Dict Json_Model View_Model View_Spec.
From Verif Require View_Proofs.
Import ListNotations.
Open Scope Z_scope.
Open Scope string_scope.
Open Scope list_scope.

(** A concrete host: paths are their texts, lower-casing of A-Z. *)
Definition demo_host : host := mkhost (fun s => s) (fun p s => p ++ [47] ++ s)
  (map (fun c : Z => if Z.leb 65 c && Z.leb c 90 then (c + 32)%Z else c)).
Definition demo_fields : fields := mkfields (VStr (t "stl")) (VStr []) (VStr (t "cmd.txt")) VNone
  (VTup [VNum 1600; VNum 1000]) (VStr (t "T")) (rgb 1 2 3) (VNum 1) (VNum 2) (rgb 4 5 6)
  (VDict [(t "red", rgb 8 2 2); (t "Gold", rgb 9 8 1)]) (VBool true) (VNum 100).
Definition demo_config : config := mkconfig demo_fields (t "stl") None (Some (t "cmd.txt")) (t "stl/renders").

(** C355: which configurations are accepted, and that they survive a round trip. *)
Theorem c355_accepted H f : (exists c, create H f = Got c) <->
  is_str (stl f) /\ (truthy (positions f) = true -> is_str (positions f)) /\ (truthy (command f) = true -> is_str (command f)) /\
  (truthy (shots f) = true -> is_str (shots f)).
Proof. exact (View_Proofs.create_iff H f). Qed.
Print Assumptions c355_accepted.
Theorem c355_screenshots H f c : create H f = Got c ->
  shots_path c = (match shots f with VStr ((_ :: _) as s) => norm H s | _ => join H (stl_path c) (t "renders") end).
Proof. intro E. apply (View_Proofs.create_parts H f c E). Qed.
Print Assumptions c355_screenshots.
Theorem c355_round_trip H f c : path_like H -> create H f = Got c -> tidy H c ->
  exists d c' d', to_dict c = Got d /\ from_dict H d = (Got c', d') /\ explicit c c' /\ to_dict c' = Got d.
Proof. exact (View_Proofs.round_trip H f c). Qed.
Print Assumptions c355_round_trip.
Example c355_nonvacuous : create demo_host demo_fields = Got demo_config /\ tidy demo_host demo_config /\
  (forall s, norm demo_host (norm demo_host s) = norm demo_host s) /\ (forall p s, norm demo_host (join demo_host p s) = join demo_host p s).
Proof.
  split; [reflexivity|]. split; [|split; reflexivity]. unfold tidy, is_tuple. cbn.
  split; [eauto|]. split; [unfold rgb; eauto|]. split; [unfold rgb; eauto|]. split; [|discriminate].
  eexists. split; [reflexivity|]. repeat constructor; cbn; unfold rgb; eauto.
Qed.

(** C356: colours by name. *)
Theorem c356_found H c d k v n : palette (raw c) = VDict d -> NoDup (map fst d) -> In (k, v) d -> lower H n = k -> get_color H c n = Got v.
Proof.
  intros P N I L. unfold get_color, get. rewrite P, L. rewrite (in_dget _ View_Proofs.teq_spec k v d N I). reflexivity.
Qed.
Print Assumptions c356_found.
Theorem c356_default H c d n : palette (raw c) = VDict d -> ~ In (lower H n) (map fst d) -> get_color H c n = Got (color (raw c)).
Proof.
  intros P N. unfold get_color, get. rewrite P. rewrite (proj2 (dget_none _ View_Proofs.teq_spec _ d) N). reflexivity.
Qed.
Print Assumptions c356_default.
Theorem c356_case H c n m : lower H n = lower H m -> get_color H c n = get_color H c m.
Proof. unfold get_color. intros ->. reflexivity. Qed.
Print Assumptions c356_case.
Example c356_nonvacuous : get_color demo_host demo_config (t "Red") = Got (rgb 8 2 2) /\ get_color demo_host demo_config (t "pink") = Got (rgb 4 5 6).
Proof. split; reflexivity. Qed.

(** C357: refuted - every colour of the palette is found under its name. *)
Theorem c357_refuted H c d k : palette (raw c) = VDict d -> In k (map fst d) -> ~ In (lower H k) (map fst d) ->
  get_color H c k = Got (color (raw c)).
Proof. intros P _ N. exact (c356_default H c d k P N). Qed.
Print Assumptions c357_refuted.
Example c357_nonvacuous : In (t "Gold") (map fst [(t "red", rgb 8 2 2); (t "Gold", rgb 9 8 1)]) /\
  get_color demo_host demo_config (t "Gold") = Got (rgb 4 5 6).
Proof. split; [right; left; reflexivity|reflexivity]. Qed.

(** C358: refuted - from_dict leaves the dictionary it is given as it was. *)
Theorem c358_refuted H l : exists d c d', d = [(t "stl_dir", VStr (t "s")); (t "window_size", VList l)] /\
  from_dict H d = (Got c, d') /\ get (t "window_size") d' = Some (VTup l) /\ get (t "window_size") d = Some (VList l).
Proof. do 3 eexists. split; [reflexivity|]. split; [vm_compute; reflexivity|]. split; reflexivity. Qed.
Print Assumptions c358_refuted.
Theorem c358_refuted_failure H : exists d c d', d = [(t "window_size", VList []); (t "stl", VNone)] /\
  from_dict H d = (Raise c, d') /\ d' <> d.
Proof. do 3 eexists. split; [reflexivity|]. split; [vm_compute; reflexivity|]. discriminate. Qed.
Print Assumptions c358_refuted_failure.

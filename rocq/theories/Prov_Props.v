(** C21: provenance records and source signatures. *)
From Coq Require Import ZArith String List Bool Lia.
From Verif Require Import Dict Prov_Model Prov_Spec Prov_Proofs.
Import ListNotations.
Open Scope Z_scope.
Open Scope list_scope.

(** Two source texts which, their line ends aside, hold the same text within surrounding
    blank space have the same signature; and if sha256 does not collide on what they hold,
    the same signature means they hold the same text.  [space] is str.isspace: all that
    matters is that LF and CR are blank. *)
Theorem c21_signature_line_endings :
  forall (space : Z -> bool) (sha : list Z -> list Z) a b ta tb ca cb,
    space 10 = true -> space 13 = true ->
    reads ta a -> trims_to space ta ca -> reads tb b -> trims_to space tb cb ->
    (ca = cb -> compute_source_signature space sha a = compute_source_signature space sha b) /\
    ((sha ca = sha cb -> ca = cb) ->
       compute_source_signature space sha a = compute_source_signature space sha b -> ca = cb).
Proof.
  intros space sha a b ta tb ca cb S10 S13 Ra Ta Rb Tb. unfold compute_source_signature.
  rewrite (normalized_core space S10 S13 a ta ca Ra Ta), (normalized_core space S10 S13 b tb cb Rb Tb).
  split; [intros ->; reflexivity|]. intros I E. apply app_inv_head in E. auto.
Qed.
Print Assumptions c21_signature_line_endings.

(** The previous theorem speaks about every text: each has one reading, and one core. *)
Theorem c21_every_text_is_read :
  forall (space : Z -> bool) a, exists t core, reads t a /\ trims_to space t core /\
    (forall t', reads t' a -> t' = t) /\ (forall core', trims_to space t core' -> core' = core).
Proof.
  intros space a. destruct (lines_reads a) as [t R]. exists t, (strip space t). repeat split; auto.
  - apply strip_spec.
  - intros t' R'. rewrite <- (reads_lines _ _ R), <- (reads_lines _ _ R'). reflexivity.
  - intros c T. symmetry. apply trims_strip, T.
Qed.
Print Assumptions c21_every_text_is_read.

(** verify_source_signature accepts the signature of one text for another exactly when they
    hold the same text (short of a sha256 collision). *)
Theorem c21_verify :
  forall (space : Z -> bool) (sha : list Z -> list Z) a b ta tb ca cb,
    space 10 = true -> space 13 = true ->
    reads ta a -> trims_to space ta ca -> reads tb b -> trims_to space tb cb ->
    (sha ca = sha cb -> ca = cb) ->
    (verify_source_signature space sha b (compute_source_signature space sha a) = true <-> ca = cb).
Proof.
  intros space sha a b ta tb ca cb S10 S13 Ra Ta Rb Tb I. unfold verify_source_signature.
  destruct (c21_signature_line_endings space sha a b ta tb ca cb S10 S13 Ra Ta Rb Tb) as [H1 H2].
  destruct (list_eq_dec Z.eq_dec _ _) as [E|N]; split; auto; try discriminate.
  intros X. destruct N. symmetry. auto.
Qed.
Print Assumptions c21_verify.

(** A record survives to_dict and from_dict. *)
Theorem c21_round_trip : forall p, from_dict (to_dict p) = Some p.
Proof. exact from_to. Qed.
Print Assumptions c21_round_trip.

(** A created record holds what it was created with: parameters keep their names, order and
    values (tuples and arrays become lists). *)
Definition same_value (a b : json) : Prop :=
  a = b \/ (exists l, (a = JTuple l \/ a = JArray l) /\ b = JList l).
Theorem c21_created :
  forall sig m c params source version time extra,
    let p := create_provenance sig m c params source version time extra in
    p_module p = m /\ p_command p = c /\ p_version p = version /\ p_time p = time /\ p_extra p = extra /\
    Forall2 (fun a b => fst a = fst b /\ same_value (snd a) (snd b)) params (p_params p) /\
    (* no parameter is left that JSON cannot hold: arrays and tuples became lists *)
    Forall (fun b => match snd b with JTuple _ | JArray _ => False | _ => True end) (p_params p) /\
    (source <> ""%string -> p_signature p = sig source).
Proof.
  intros. repeat split.
  - cbn. induction params as [|[k v] r]; constructor; auto. cbn. split; auto.
    destruct v; cbn; unfold same_value; eauto; right; eauto.
  - cbn. induction params as [|[k v] r]; constructor; auto. cbn. destruct v; exact I.
  - intros N. cbn. destruct (String.eqb_spec source ""); [contradiction|reflexivity].
Qed.
Print Assumptions c21_created.

Definition sp (c : Z) : bool := (c =? 32) || (9 <=? c) && (c <=? 13).
Example c21_nonvacuous :
  let a := [32; 97; 13; 10; 98; 13; 13; 10; 99; 10] in let b := [97; 10; 98; 13; 10; 10; 99; 32] in
  reads [32; 97; 10; 98; 10; 10; 99; 10] a /\ reads [97; 10; 98; 10; 10; 99; 32] b /\
  trims_to sp [32; 97; 10; 98; 10; 10; 99; 10] [97; 10; 98; 10; 10; 99] /\ trims_to sp [97; 10; 98; 10; 10; 99; 32] [97; 10; 98; 10; 10; 99] /\
  a <> b /\ verify_source_signature sp (fun x => x) b (compute_source_signature sp (fun x => x) a) = true /\
  verify_source_signature sp (fun x => x) (97 :: 32 :: 10 :: []) (compute_source_signature sp (fun x => x) (97 :: 98 :: [])) = false.
Proof.
  assert (T : forall s, trims_to sp s (strip sp s)) by apply strip_spec. cbv zeta. repeat split; try reflexivity; try discriminate.
  - repeat (first [apply rd_nil | apply rd_crlf | apply rd_lf | apply rd_cr; [intros; discriminate|] | apply rd_char; [discriminate|discriminate|]]).
  - repeat (first [apply rd_nil | apply rd_crlf | apply rd_lf | apply rd_cr; [intros; discriminate|] | apply rd_char; [discriminate|discriminate|]]).
  - apply (T [32; 97; 10; 98; 10; 10; 99; 10]).
  - apply (T [97; 10; 98; 10; 10; 99; 32]).
Qed.

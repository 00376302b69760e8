(** Specification vocabulary for Resolver_Props.v: what it means to apply
    operations to a part, independent of the resolver's indices and loops. *)
From Coq Require Import List String ZArith Bool Permutation Sorting.Sorted.
From Verif Require Import Dict Resolver_Model.
Import ListNotations.
Open Scope string_scope.
Open Scope list_scope.

Definition is_cutter (c : string * op) : bool := truthy (o_kind (snd c)).
(** the operations that name [t], in dictionary order, one per occurrence of [t] *)
Definition ops_on (m : list (string * op)) (t : string) : list (string * op) :=
  flat_map (fun c => repeat c (count_occ string_dec (target_list (snd c)) t)) (filter is_cutter m).
Definition le_prio (a b : string * op) : Prop := (prio (snd a) <= prio (snd b))%Z.
(** [l'] is [l] stably sorted by priority *)
Definition stable_sorted (l l' : list (string * op)) : Prop :=
  Permutation l l' /\ StronglySorted le_prio l' /\
  forall p, filter (fun c => (prio (snd c) =? p)%Z) l' = filter (fun c => (prio (snd c) =? p)%Z) l.

Definition well_formed (m : list (string * op)) : Prop :=
    forall c o, In (c, o) m -> truthy (o_kind o) = true -> target_list o <> [].

Section S.
  Variable geom : Type.
  Variable bo : geom -> geom -> string -> option geom.
  (** what applying a list of operations to a part means *)
  Inductive outcome := Applied | Missing | Failed.
  Inductive cuts (ps : list (string * geom)) : geom -> list (string * op) -> geom -> list (string * op * outcome) -> Prop :=
  | cuts_nil g : cuts ps g [] g []
  | cuts_apply g c o cg g' rest g2 tr :
      dget String.eqb c ps = Some cg -> bo g cg (kind o) = Some g' ->
      cuts ps g' rest g2 tr -> cuts ps g ((c, o) :: rest) g2 ((c, o, Applied) :: tr)
  | cuts_missing g c o rest g2 tr :
      dget String.eqb c ps = None ->
      cuts ps g rest g2 tr -> cuts ps g ((c, o) :: rest) g2 ((c, o, Missing) :: tr)
  | cuts_fail g c o cg rest g2 tr :
      dget String.eqb c ps = Some cg -> bo g cg (kind o) = None ->
      cuts ps g rest g2 tr -> cuts ps g ((c, o) :: rest) g2 ((c, o, Failed) :: tr).
  Definition applied_ids (tr : list (string * op * outcome)) : list string :=
    flat_map (fun x => match snd x with Applied => [fst (fst x)] | _ => [] end) tr.
  Definition messages (pol : string) (pid : string) (tr : list (string * op * outcome)) : list msg :=
    flat_map (fun x => let '(c, o, w) := x in
      if String.eqb (policy o) pol then
        match w with Applied => [] | Missing => [MMissing c pid] | Failed => [MFailed (kind o) c pid] end
      else []) tr.
  Definition retained_ids (tr : list (string * op * outcome)) : list string :=
    flat_map (fun x => let '(c, o, w) := x in
      match w with Missing => [] | _ => if consumes o then [] else [c] end) tr.

  (** the sequence of basic resolutions that a staged one runs *)
  Fixpoint stage_runs (stages todo : list string) (ps : list (string * geom)) (m : list (string * op)) : list (result geom) :=
    match todo with
    | [] => []
    | st :: rest =>
        match bucket stages (collect_cutters m) st with
        | [] => stage_runs stages rest ps m
        | b => let r := basic_resolve bo ps (stage_meta m b) in
               r :: stage_runs stages rest (map (fun pr => (fst pr, r_geom (snd pr))) (s_parts r)) m
        end
    end.
  Definition out_parts (r : result geom) : list (string * geom) := map (fun pr => (fst pr, r_geom (snd pr))) (s_parts r).
  Definition applied_in (pid : string) (r : result geom) : list string :=
    match dget String.eqb pid (s_parts r) with Some rp => r_applied rp | None => [] end.
End S.

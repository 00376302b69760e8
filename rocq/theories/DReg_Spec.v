(** What a source holds after a history, looking at that source alone. *)
From Coq Require Import String List Bool.
From Verif Require Import Dict DReg_Model.
Import ListNotations.
Open Scope list_scope.

Section Spec.
  Context {D : Type}.
  Variable disk : list string -> string -> found (D := D).
  (** Not looked at yet; looked at and nothing there; a table. *)
  Inductive view := Fresh | Nothing | Table (ds : table (D := D)).
  Definition content (v : view) : table := match v with Table ds => ds | _ => [] end.
  Definition on_disk (paths : list string) (s : string) : view :=
    match disk paths s with
    | Readable ds _ => Table ds
    | NoFile | Unreadable | NoSidecar => Table []
    | UnknownType => Nothing
    end.
  Definition touched (paths : list string) (s : string) (v : view) : view := match v with Fresh => on_disk paths s | _ => v end.
  (** paths and the view of source [s] *)
  Definition effect (s : string) (pv : list string * view) (o : op (D := D)) : list string * view :=
    let (paths, v) := pv in
    match o with
    | RegisterSource s' ds => (paths, if String.eqb s' s then Table ds else v)
    | RegisterDatum s' n d => (paths, if String.eqb s' s then Table (dset String.eqb n d (content v)) else v)
    | RegisterPart s' ds => (paths, match ds with [] => if String.eqb s' s then Table [] else v | _ => v end)
    | Get s' _ | GetAll s' | ListDatums s' => (paths, if String.eqb s' s then touched paths s v else v)
    | ListSources => (paths, v)
    | AddPath p => (if existsb (String.eqb p) paths then paths else paths ++ [p], v)
    | Clear => (paths, Fresh)
    end.
  Definition history (s : string) (os : list (op (D := D))) : list string * view := fold_left (effect s) os ([], Fresh).
  (** The view after one more lookup. *)
  Definition seen (s : string) (os : list (op (D := D))) : view := let (p, v) := history s os in touched p s v.
  (** No file ties the name [s] to another name. *)
  Definition unshared (s : string) : Prop :=
    forall paths f ds p, disk paths f = Readable ds (Some p) -> f = s \/ p = s -> f = p.
End Spec.

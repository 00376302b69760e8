(** What is signed, and what counts as a signature over it. *)
From Coq Require Import ZArith String List Bool.
From Verif Require Import Dict Json_Model Json_Spec Pkg_Model Pkg_Spec Sign_Model.
Import ListNotations.
Open Scope Z_scope.
Open Scope list_scope.

(** The two manifests have the same fields with the same values, in whatever order, except
    perhaps the field "signatures". *)
Definition same_value (a b : option json) : Prop :=
  match a, b with Some x, Some y => same_data x y | None, None => True | _, _ => False end.
Definition same_but_signatures (d1 d2 : dict) : Prop :=
  forall k, k <> t "signatures" -> same_value (dget teq k d1) (dget teq k d2).
(** Two different texts with the same SHA-256 digest. *)
Definition collision (f : text -> text) : Prop := exists a b, a <> b /\ f a = f b.

(** One call of sign_package. *)
Record signing := Signing { g_method : method; g_key : text; g_name : text; g_time : text; g_add : bool }.
Section Spec.
  Variables (C : crypto) (loc : text -> text).
  Definition sign (g : signing) (p : package) : package * res unit :=
    sign_package C loc (g_method g) (g_key g) (g_name g) (g_time g) (g_add g) p.
  Definition sign_all (gs : list signing) (p : package) : package := fold_left (fun p g => fst (sign g p)) gs p.
  (** what the tool answers *)
  Definition tool (g : signing) (content : text) : option (text * text * text) :=
    match g_method g with GPG => gpg_sign C (g_key g) content | SSH => ssh_sign C (g_key g) content end.
  (** the file sign_package writes for a signer *)
  Definition sig_file (m : method) (signer : text) : text :=
    match m with GPG => t "signatures/manifest.sig.asc" | SSH => t "signatures/manifest.sig." ++ safe_name signer end.
  (** the tool accepts this signature over this content *)
  Definition accepted (m : method) (content sig : text) : Prop :=
    match m with GPG => gpg_check C content sig = GGood | SSH => ssh_check C content sig = AGood end.
  (** the manifests whose digest was signed, if the tools accept nothing else *)
  Definition only_accepts (signed : dict -> Prop) : Prop :=
    forall m content sig, accepted m content sig -> exists d h, signed d /\ manifest_hash C d = Ok h /\ content = signable h.
End Spec.

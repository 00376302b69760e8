(** C348-C354: walking syntax trees and pipelines of transforms. *)
From Coq Require Import ZArith List Bool.
From Verif Require Import Lex_Model Ast Tree_Model Tree_Spec.
From Verif Require Tree_Proofs.
Import ListNotations.
Open Scope list_scope.
Open Scope nat_scope.

Definition x_ : name := [120%Z].
Definition y_ : name := [121%Z].
Definition f_ : name := [102%Z].
Definition demo : expr := EIndex (EList [EId x_; EUn NOT (EId y_)]) (EMember (EId y_) f_).
Definition renaming (r : name -> name) : hooks := mkhooks ELit (fun n => EId (r n)).

(** C348: the default walk of an expression. *)
Theorem c348_unchanged e : (forall x, part_of x e -> ~ call_or_comp x /\ ~ lossy x) -> visit default e = Got e.
Proof. exact (Tree_Proofs.visit_default e). Qed.
Print Assumptions c348_unchanged.
Theorem c348_raises h e : visit h e = Raise AttributeE <-> exists x, part_of x e /\ call_or_comp x.
Proof. exact (Tree_Proofs.visit_raises h e). Qed.
Print Assumptions c348_raises.
Theorem c348_only h e r : visit h e = Raise r -> r = AttributeE.
Proof. exact (Tree_Proofs.visit_only h e r). Qed.
Print Assumptions c348_only.
Example c348_nonvacuous : visit default demo = Got demo /\ visit default (ECall (EId f_) [] []) = Raise AttributeE.
Proof. split; reflexivity. Qed.

(** C349: an override of visit_identifier reaches every identifier on the way, once. *)
Theorem c349_renames r e e' : visit (renaming r) e = Got e' -> idents e' = map r (idents e).
Proof. exact (Tree_Proofs.visit_idents r e e'). Qed.
Print Assumptions c349_renames.
Example c349_nonvacuous : exists e', visit (renaming (fun _ => f_)) demo = Got e' /\ idents e' = [f_; f_; f_].
Proof. eexists. split; reflexivity. Qed.

(** C350: refuted - the default walk leaves every expression unchanged. *)
Theorem c350_refuted_method : exists o m args named,
  visit default (EMethod o m args named) = Got (EMethod o m args []) /\ named <> [].
Proof. exists (EId x_), f_, [EId y_], [(y_, EId x_)]. split; [reflexivity|discriminate]. Qed.
Print Assumptions c350_refuted_method.
Theorem c350_refuted_if c t elifs els : visit default c = Got c -> visit default (EIf c t elifs els) = Got (EIf c t [] els).
Proof. intro E. cbn. rewrite E. reflexivity. Qed.
Print Assumptions c350_refuted_if.
Theorem c350_refuted_call f args named : visit default (ECall f args named) = Raise AttributeE.
Proof. apply Tree_Proofs.visit_raises. eexists. split; [apply po_self|exact I]. Qed.
Print Assumptions c350_refuted_call.
Theorem c350_refuted_block ss e : visit_block default (Block ss (Some e)) <> Got (Block ss (Some e)).
Proof. cbn. destruct (map_res _ _); cbn; congruence. Qed.
Print Assumptions c350_refuted_block.

(** C351: refuted - an override reaches every identifier. *)
Theorem c351_refuted_ternary h c t f : visit h (ECond c t f) = Got (ECond c t f).
Proof. reflexivity. Qed.
Print Assumptions c351_refuted_ternary.
Theorem c351_refuted_loops h c b t elifs els :
  visit_statement h (SWhile c b) = Got (SWhile c b) /\ visit_statement h (SIf c t elifs els) = Got (SIf c t elifs els).
Proof. split; reflexivity. Qed.
Print Assumptions c351_refuted_loops.
Theorem c351_refuted_target h n v v' : visit h v = Got v' -> visit_statement h (SAssign (EId n) v) = Got (SAssign (EId n) v').
Proof. intro E. cbn. rewrite E. reflexivity. Qed.
Print Assumptions c351_refuted_target.

(** C352: refuted - a tree transform of a module returns a module. *)
Theorem c352_refuted h m : transform_tree h m = Raise TypeE.
Proof. exact (Tree_Proofs.module_raises h m). Qed.
Print Assumptions c352_refuted.
Theorem c352_refuted_pipeline h a b m m' : apply a m = Got m' -> apply (a ++ transform_tree h :: b) m = Raise TypeE.
Proof. intro E. apply Tree_Proofs.apply_raises. exists a, (transform_tree h), b, m'. split; [reflexivity|]. split; [exact E|]. apply Tree_Proofs.module_raises. Qed.
Print Assumptions c352_refuted_pipeline.

(** C353: pipelines apply their transforms from left to right. *)
Theorem c353_steps ts m m' : apply ts m = Got m' <->
  exists s : nat -> modul, s 0 = m /\ s (length ts) = m' /\ forall i f, nth_error ts i = Some f -> f (s i) = Got (s (S i)).
Proof. exact (Tree_Proofs.apply_steps ts m m'). Qed.
Print Assumptions c353_steps.
Theorem c353_raises ts m e : apply ts m = Raise e <->
  exists a f b m', ts = a ++ f :: b /\ apply a m = Got m' /\ f m' = Raise e.
Proof. exact (Tree_Proofs.apply_raises ts m e). Qed.
Print Assumptions c353_raises.
Theorem c353_identity a b m : apply (a ++ identity :: b) m = apply (a ++ b) m.
Proof. rewrite !Tree_Proofs.apply_app. destruct (apply a m); reflexivity. Qed.
Print Assumptions c353_identity.
Theorem c353_add {T} p (x : T) H : cells (add p x H) p = cells H p ++ [x] /\ forall q, q <> p -> cells (add p x H) q = cells H q.
Proof. cbn. rewrite Nat.eqb_refl. split; [reflexivity|]. intros q N. apply Nat.eqb_neq in N. rewrite N. reflexivity. Qed.
Print Assumptions c353_add.
Theorem c353_fresh {T} arg (H : heap T) p H' : init arg H = (p, H') -> (forall r, arg = Some r -> cells H r = []) ->
  p = next H /\ cells H' p = [] /\ forall q, q <> p -> cells H' q = cells H q.
Proof.
  intros E K.
  assert (E' : (next H, mkheap T (fun r => if Nat.eqb r (next H) then [] else cells H r) (S (next H))) = (p, H')).
  { destruct arg as [r|]; cbn in E; [rewrite (K r eq_refl) in E|]; exact E. }
  inversion E'; subst. cbn. rewrite Nat.eqb_refl. repeat split; auto. intros q N. apply Nat.eqb_neq in N. rewrite N. reflexivity.
Qed.
Print Assumptions c353_fresh.
Example c353_nonvacuous m : apply [identity; identity] m = Got m.
Proof. reflexivity. Qed.

(** C354: refuted - adding to a pipeline changes only that pipeline. *)
Theorem c354_refuted {T} r (H : heap T) (x : T) : cells H r <> [] ->
  let p := init (Some r) H in let q := init (Some r) (snd p) in
  cells (add (fst p) x (snd q)) (fst q) = cells H r ++ [x] /\ cells (add (fst p) x (snd q)) r = cells H r ++ [x].
Proof.
  intros N. unfold init. destruct (cells H r) eqn:E; [congruence|]. cbn. rewrite E. cbn. rewrite Nat.eqb_refl, E. split; reflexivity.
Qed.
Print Assumptions c354_refuted.

(** A concrete host, for examples: YAML is replaced by a simple faithful encoding, the digest
    by the contents themselves. *)
From Coq Require Import ZArith String List Bool Lia.
From Verif Require Import Dict Json_Model Json_Proofs Pkg_Model Pkg_Spec.
Import ListNotations.
Open Scope Z_scope.
Open Scope list_scope.

Fixpoint enc (j : json) : list Z :=
  match j with
  | JNull => [0]
  | JBool b => [1; if b then 1 else 0]
  | JInt z => [2; z]
  | JFloat f => [3; f]
  | JStr s => 4 :: Z.of_nat (length s) :: s
  | JList l => 5 :: Z.of_nat (length l) :: flat_map enc l
  | JObj d => 6 :: Z.of_nat (length d) :: flat_map (fun kv => Z.of_nat (length (fst kv)) :: fst kv ++ enc (snd kv)) d
  | JOpaque n => [7; n]
  end.
Section Many.
  Context {A : Type} (one : list Z -> option (A * list Z)).
  Fixpoint many (n : nat) (b : list Z) : option (list A * list Z) :=
    match n with
    | O => Some ([], b)
    | S n => match one b with None => None | Some (x, b') => match many n b' with None => None | Some (l, r) => Some (x :: l, r) end end
    end.
End Many.
Fixpoint dec (fuel : nat) (b : list Z) : option (json * list Z) :=
  match fuel with
  | O => None
  | S f =>
    match b with
    | 0 :: r => Some (JNull, r)
    | 1 :: x :: r => Some (JBool (x =? 1), r)
    | 2 :: z :: r => Some (JInt z, r)
    | 3 :: z :: r => Some (JFloat z, r)
    | 4 :: n :: r => Some (JStr (firstn (Z.to_nat n) r), skipn (Z.to_nat n) r)
    | 5 :: n :: r => match many (dec f) (Z.to_nat n) r with Some (l, r') => Some (JList l, r') | None => None end
    | 6 :: n :: r => match many (fun b => match b with [] => None | k :: r => match dec f (skipn (Z.to_nat k) r) with Some (v, r') => Some ((firstn (Z.to_nat k) r, v), r') | None => None end end) (Z.to_nat n) r
                     with Some (l, r') => Some (JObj l, r') | None => None end
    | 7 :: n :: r => Some (JOpaque n, r)
    | _ => None
    end
  end.
Fixpoint depth (j : json) : nat :=
  match j with
  | JList l => S (fold_right (fun x n => Nat.max (depth x) n) O l)
  | JObj d => S (fold_right (fun kv n => Nat.max (depth (snd kv)) n) O d)
  | _ => 1%nat
  end.
Lemma first_skip {A} (s r : list A) : firstn (length s) (s ++ r) = s /\ skipn (length s) (s ++ r) = r.
Proof. split; [rewrite firstn_app, Nat.sub_diag, firstn_all; cbn; apply app_nil_r|rewrite skipn_app, Nat.sub_diag, skipn_all; reflexivity]. Qed.
Lemma dec_enc j : forall fuel r, (depth j <= fuel)%nat -> dec fuel (enc j ++ r) = Some (j, r).
Proof.
  induction j using json_ind'; intros [|f'] r L; cbn in L; try lia; try reflexivity.
  - cbn. destruct b; reflexivity.
  - cbn [enc dec app]. rewrite Nat2Z.id. destruct (first_skip s r) as [-> ->]. reflexivity.
  - cbn [enc dec app]. rewrite Nat2Z.id.
    assert (G : forall r, many (dec f') (length l) (flat_map enc l ++ r) = Some (l, r)); [|rewrite G; reflexivity].
    revert L. induction H as [|x l Hx Hl IH]; intros L r'; cbn [many length flat_map app]; auto. cbn in L.
    rewrite <- app_assoc, Hx by lia. rewrite IH by lia. reflexivity.
  - cbn [enc dec app]. rewrite Nat2Z.id. set (one := fun b : list Z => _).
    assert (G : forall r, many one (length d) (flat_map (fun kv => Z.of_nat (length (fst kv)) :: fst kv ++ enc (snd kv)) d ++ r) = Some (d, r)); [|rewrite G; reflexivity].
    revert L. induction H as [|[k v] d Hx Hl IH]; intros L r'; cbn [many length flat_map app fst snd]; auto. cbn in L, Hx.
    unfold one at 1. rewrite Nat2Z.id, <- !app_assoc. destruct (first_skip k (enc v ++ flat_map (fun kv => Z.of_nat (length (fst kv)) :: fst kv ++ enc (snd kv)) d ++ r')) as [-> ->].
    rewrite Hx by lia. rewrite IH by lia. reflexivity.
Qed.
Lemma depth_length j : (depth j <= length (enc j))%nat.
Proof.
  induction j using json_ind'; cbn [depth enc length]; try lia.
  - enough (fold_right (fun x n => Nat.max (depth x) n) 0 l <= length (flat_map enc l))%nat by lia.
    induction H; cbn [fold_right flat_map length]; auto. rewrite app_length. lia.
  - enough (fold_right (fun kv n => Nat.max (depth (snd kv)) n) 0 d <= length (flat_map (fun kv => Z.of_nat (length (fst kv)) :: fst kv ++ enc (snd kv)) d))%nat by lia.
    induction H; cbn [fold_right flat_map length app]; auto. cbv beta in *. rewrite !app_length.
 change (@fst (list Z) json) with (@fst text json) in *. change (@snd (list Z) json) with (@snd text json) in *. unfold text in *. lia.
Qed.
Definition decode (b : list Z) : option json := match b with [] => Some JNull | _ => match dec (length b) b with Some (j, []) => Some j | _ => None end end.
Definition H0 : host := Host (fun p => p) (fun _ => true) (fun _ b => b) enc decode (fun _ => true) (fun f => f =? 0) (fun _ => true).
Lemma H0_faithful : yaml_faithful H0.
Proof.
  intros j _. cbn. unfold decode. assert (X : exists a l, enc j = a :: l) by (destruct j; eexists _, _; reflexivity). destruct X as (a & l & X). rewrite X, <- X.
  rewrite <- (app_nil_r (enc j)) at 2. rewrite dec_enc by apply depth_length. reflexivity.
Qed.

(** Proofs for C355-C358. *)
From Coq Require Import ZArith String List Bool.
From Verif Require Import Dict Json_Model View_Model View_Spec.
Import ListNotations.
Open Scope Z_scope.
Open Scope string_scope.
Open Scope list_scope.

Lemma teq_spec a b : teq a b = true <-> a = b.
Proof. unfold teq. destruct (list_eq_dec Z.eq_dec a b); split; congruence. Qed.

Lemma bind_got {A B} (r : res A) (k : A -> res B) b : bind r k = Got b -> exists a, r = Got a /\ k a = Got b.
Proof. destruct r; cbn; [eauto|discriminate]. Qed.

Lemma map_items_there d : Forall (fun kv => is_tuple (snd kv)) d ->
  exists d', map_items to_list d = Got d' /\ map_items to_tuple d' = Got d.
Proof.
  induction 1 as [|[k v] d [l E] _ (d' & A & B)]; cbn in *.
  - exists []. auto.
  - subst. cbn. rewrite A. cbn. eexists. split; [reflexivity|]. cbn. rewrite B. reflexivity.
Qed.

Lemma opt_path_str H v p : opt_path H v = Got p -> opt_path H (opt_str v) = Got p.
Proof. unfold opt_path, opt_str. destruct (truthy v) eqn:T; [rewrite T; auto|cbn; auto]. Qed.

Lemma create_iff H f : (exists c, create H f = Got c) <->
  is_str (stl f) /\ (truthy (positions f) = true -> is_str (positions f)) /\ (truthy (command f) = true -> is_str (command f)) /\
  (truthy (shots f) = true -> is_str (shots f)).
Proof.
  assert (P : forall v, (exists p, path_of H v = Got p) <-> is_str v).
  { intro v. unfold is_str. split; [intros [p E]; destruct v; cbn in E; try discriminate; eauto|intros [s ->]; cbn; eauto]. }
  assert (O : forall v, (exists p, opt_path H v = Got p) <-> (truthy v = true -> is_str v)).
  { intro v. unfold opt_path. destruct (truthy v).
    - rewrite <- P. split; [intros [p E] _; apply bind_got in E as (a & E & _); eauto|intros K; destruct (K eq_refl) as [p E]; rewrite E; cbn; eauto].
    - split; [discriminate|eauto]. }
  unfold create. split.
  - intros [c E]. apply bind_got in E as (a & E1 & E). apply bind_got in E as (b & E2 & E). apply bind_got in E as (d & E3 & E).
    apply bind_got in E as (e & E4 & E).
    split; [apply P; eauto|]. split; [apply O; eauto|]. split; [apply O; eauto|]. intro T. rewrite T in E4. apply P. eauto.
  - intros (A & B & C & D). apply P in A as [a ->]. apply O in B as [b ->]. apply O in C as [c ->]. cbn.
    destruct (truthy (shots f)); [destruct (proj2 (P _) (D eq_refl)) as [e ->]|]; cbn; eauto.
Qed.

Lemma create_parts H f c : create H f = Got c ->
  raw c = f /\ path_of H (stl f) = Got (stl_path c) /\ opt_path H (positions f) = Got (positions_path c) /\
  opt_path H (command f) = Got (command_path c) /\
  shots_path c = (match shots f with VStr ((_ :: _) as s) => norm H s | _ => join H (stl_path c) (t "renders") end).
Proof.
  unfold create. intro E. apply bind_got in E as (a & E1 & E). apply bind_got in E as (b & E2 & E). apply bind_got in E as (d & E3 & E).
  apply bind_got in E as (e & E4 & E). inversion E; subst. cbn. repeat split; auto.
  destruct (shots f) as [|[]|n|[]|[]|[]|[]]; cbn in E4; try (inversion E4; reflexivity).
  destruct (Z.eqb n 0); cbn in E4; inversion E4; reflexivity.
Qed.

Lemma norm_shots H f c : path_like H -> create H f = Got c -> norm H (shots_path c) = shots_path c.
Proof.
  intros (N & J) E. apply create_parts in E as (_ & _ & _ & _ & ->).
  destruct (shots f) as [|?|?|[]|?|?|?]; auto.
Qed.

Lemma round_trip H f c : path_like H -> create H f = Got c -> tidy H c ->
  exists d c' d', to_dict c = Got d /\ from_dict H d = (Got c', d') /\ explicit c c' /\ to_dict c' = Got d.
Proof.
  intros PL E ((w & Ew) & (b & Eb) & (l & El) & (p & Ep & Fp) & NE).
  pose proof (norm_shots H f c PL E) as NS. pose proof (create_parts _ _ _ E) as (R & P1 & P2 & P3 & _). subst f.
  destruct (map_items_there p Fp) as (p' & A & B).
  destruct c as [f s ps cm sh]. cbn in *. destruct f as [f1 f2 f3 f4 f5 f6 f7 f8 f9 f10 f11 f12 f13]. cbn in *. subst f5 f7 f10 f11.
  assert (D : to_dict (mkconfig (mkfields f1 f2 f3 f4 (VTup w) f6 (VTup b) f8 f9 (VTup l) (VDict p) f12 f13) s ps cm sh) = Got [
    (t "stl_dir", f1); (t "positions_file", opt_str f2); (t "command_file", opt_str f3);
    (t "screenshot_dir", VStr sh); (t "window_size", VList w); (t "window_title", f6);
    (t "background_color", VList b); (t "default_opacity", f8); (t "xray_opacity", f9);
    (t "default_color", VList l); (t "color_palette", VDict p'); (t "enable_multi_viewport", f12);
    (t "command_poll_interval_ms", f13)]).
  { unfold to_dict. cbn [raw win bg color palette to_list elems bind items]. rewrite A. reflexivity. }
  rewrite D.
  assert (F : from_dict H [
    (t "stl_dir", f1); (t "positions_file", opt_str f2); (t "command_file", opt_str f3);
    (t "screenshot_dir", VStr sh); (t "window_size", VList w); (t "window_title", f6);
    (t "background_color", VList b); (t "default_opacity", f8); (t "xray_opacity", f9);
    (t "default_color", VList l); (t "color_palette", VDict p'); (t "enable_multi_viewport", f12);
    (t "command_poll_interval_ms", f13)] =
   (create H (mkfields f1 (opt_str f2) (opt_str f3) (VStr sh) (VTup w) f6 (VTup b) f8 f9 (VTup l) (VDict p) f12 f13), [
    (t "stl_dir", f1); (t "positions_file", opt_str f2); (t "command_file", opt_str f3);
    (t "screenshot_dir", VStr sh); (t "window_size", VTup w); (t "window_title", f6);
    (t "background_color", VTup b); (t "default_opacity", f8); (t "xray_opacity", f9);
    (t "default_color", VTup l); (t "color_palette", VDict p); (t "enable_multi_viewport", f12);
    (t "command_poll_interval_ms", f13)])).
  { pose proof B as B'. vm_compute in B'. vm_compute. rewrite B'. reflexivity. }
  destruct sh as [|z sh]; [congruence|].
  set (c' := mkconfig (mkfields f1 (opt_str f2) (opt_str f3) (VStr (z :: sh)) (VTup w) f6 (VTup b) f8 f9 (VTup l) (VDict p) f12 f13) s ps cm (z :: sh)).
  assert (K : create H (mkfields f1 (opt_str f2) (opt_str f3) (VStr (z :: sh)) (VTup w) f6 (VTup b) f8 f9 (VTup l) (VDict p) f12 f13) = Got c').
  { unfold create. cbn [stl positions command shots]. rewrite P1. cbn [bind]. rewrite (opt_path_str _ _ _ P2). cbn [bind].
    rewrite (opt_path_str _ _ _ P3). cbn [bind truthy path_of]. rewrite NS. reflexivity. }
  do 3 eexists. split; [reflexivity|]. split; [rewrite F, K; reflexivity|]. split.
  - unfold explicit, c'. cbn. repeat split; reflexivity.
  - unfold to_dict, c'. cbn [raw win bg color palette to_list elems bind items positions command stl shots_path title opacity xray multi poll].
    rewrite A. cbn [bind]. unfold opt_str. destruct (truthy f2) eqn:T2; destruct (truthy f3) eqn:T3; rewrite ?T2, ?T3; reflexivity.
Qed.

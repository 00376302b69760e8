From Coq Require Import ZArith List Bool Lia.
From Verif Require Import Dict Stl_Model Stl_Spec.
Import ListNotations.
Open Scope Z_scope.
Open Scope list_scope.

Lemma starts_sep p c s q : ~ In c p -> starts p (s ++ c :: q) = true -> starts p s = true.
Proof.
  revert s. induction p as [|a p IH]; intros s N; [destruct s; auto|]. destruct s as [|b s]; cbn [app starts]; intros H; apply andb_true_iff in H as [H1 H2].
  - apply Z.eqb_eq in H1. exfalso. apply N. left. exact H1.
  - rewrite H1. cbn. apply IH; auto. intros X. apply N. right. exact X.
Qed.
Lemma word_at_starts w l : starts w (map lower l) = false -> word_at w l = None.
Proof. revert l. induction w as [|a w IH]; intros [|c l]; cbn; auto; try discriminate. destruct (a =? lower c); cbn; auto. Qed.
Lemma word_at_app w r : forallb (fun c => lower c =? c) w = true -> word_at w (w ++ r) = Some r.
Proof.
  induction w as [|a w IH]; cbn; auto. intros H. apply andb_true_iff in H as [H1 H2]. apply Z.eqb_eq in H1. rewrite H1, Z.eqb_refl. auto.
Qed.
Lemma word_at_length w : forall l r, word_at w l = Some r -> length l = (length w + length r)%nat.
Proof. induction w as [|a w IH]; intros [|c l] r; cbn; try discriminate; try (intros [= <-]; reflexivity). destruct (a =? lower c); [|discriminate]. intros H. rewrite (IH _ _ H). reflexivity. Qed.
Lemma span_length f l : length l = (length (fst (span f l)) + length (snd (span f l)))%nat.
Proof. induction l as [|c l IH]; auto. cbn. destruct (f c); auto. destruct (span f l). cbn in *. lia. Qed.
Lemma span_app f a c r : forallb f a = true -> f c = false -> span f (a ++ c :: r) = (a, c :: r).
Proof. induction a as [|x a IH]; cbn [app span forallb]; intros H C; [rewrite C; reflexivity|]. apply andb_true_iff in H as [H1 H2]. rewrite H1, IH; auto. Qed.

Section Ascii.
  Context {F : Type}.
  Variables (fmt : F -> list Z) (number : list Z -> F) (blank digit : Z -> bool).
  Hypothesis classes : ascii_classes blank digit.
  Notation match_items := (match_items blank digit).
  Notation find_facets := (find_facets number blank digit).
  Notation parse_ascii := (parse_ascii number blank digit).

  Lemma match_items_length is : forall l g g' r, match_items is l g = Some (g', r) -> (length r <= length l)%nat.
  Proof.
    induction is as [|[w| |] is IH]; intros l g g' r; cbn [Stl_Model.match_items].
    - intros [= _ <-]. lia.
    - destruct (word_at w l) as [l'|] eqn:E; [|discriminate]. intros H. apply IH in H. apply word_at_length in E. lia.
    - pose proof (span_length blank l) as S. destruct (span blank l) as [a r']. destruct a; [discriminate|]. intros H. apply IH in H. cbn [fst snd] in S. lia.
    - pose proof (span_length (numeric digit) l) as S. destruct (span (numeric digit) l) as [a r']. destruct a; [discriminate|]. intros H. apply IH in H. cbn [fst snd] in S. lia.
  Qed.
  Lemma facet_length l g r : match_items facet_items l [] = Some (g, r) -> (length r < length l)%nat.
  Proof.
    unfold facet_items. cbn [app Stl_Model.match_items]. destruct (word_at facet_word l) as [l'|] eqn:E; [|discriminate]. apply word_at_length in E. cbn [length facet_word] in E.
    intros H. match type of H with ?x = _ => change x with (match_items (tl facet_items) l' []) in H end. apply match_items_length in H. lia.
  Qed.
  Lemma fuel_enough : forall n l f1 f2, (length l < n)%nat -> (length l < f1)%nat -> (length l < f2)%nat -> find_facets f1 l = find_facets f2 l.
  Proof.
    induction n as [|n IH]; intros l f1 f2 L L1 L2; [lia|]. destruct f1 as [|f1]; [lia|]. destruct f2 as [|f2]; [lia|]. cbn [Stl_Model.find_facets].
    destruct l as [|c l]; auto. destruct (match_items facet_items (c :: l) []) as [[g r]|] eqn:M.
    - apply facet_length in M. cbn [length] in *. assert (E : find_facets f1 r = find_facets f2 r) by (apply IH; lia). rewrite E. reflexivity.
    - cbn [length] in *. apply IH; lia.
  Qed.
  Lemma find_step f c l : find_facets (S f) (c :: l) = match match_items facet_items (c :: l) [] with
    | Some (g, rest) => match of_groups number g with Some t => t :: find_facets f rest | None => find_facets f rest end
    | None => find_facets f l end.
  Proof. reflexivity. Qed.
  Lemma parse_skip c l : match_items facet_items (c :: l) [] = None -> parse_ascii (c :: l) = parse_ascii l.
  Proof. intros M. unfold Stl_Model.parse_ascii. rewrite find_step, M. apply fuel_enough with (n := S (length l)); cbn [length]; lia. Qed.
  Lemma parse_hit l g r t : match_items facet_items l [] = Some (g, r) -> of_groups number g = Some t -> parse_ascii l = t :: parse_ascii r.
  Proof.
    intros M G. pose proof (facet_length _ _ _ M) as L. destruct l as [|c l]; [cbn in L; lia|]. unfold Stl_Model.parse_ascii. rewrite find_step, M, G. f_equal.
    apply fuel_enough with (n := S (length r)); lia.
  Qed.
  Lemma no_word l : starts facet_word (map lower l) = false -> match_items facet_items l [] = None.
  Proof. intros H. unfold facet_items. cbn [app Stl_Model.match_items]. rewrite (word_at_starts _ _ H). reflexivity. Qed.
  (** a line that does not mention "facet" *)
  Lemma parse_line p q : contains facet_word (map lower p) = false -> parse_ascii (p ++ 10 :: q) = parse_ascii q.
  Proof.
    induction p as [|c p IH]; intros H; cbn [app].
    - apply parse_skip, no_word. cbn [map]. change (lower 10) with 10. reflexivity.
    - cbn [map contains] in H. apply orb_false_iff in H as [H1 H2]. rewrite parse_skip; auto. apply no_word. apply not_true_iff_false. intros X.
      apply not_true_iff_false in H1. apply H1. change (c :: p ++ 10 :: q) with ((c :: p) ++ 10 :: q) in X. rewrite map_app in X. apply starts_sep in X; [exact X|]. change (lower 10) with 10. cbn. intuition discriminate.
  Qed.
  Lemma parse_spaces n q : parse_ascii (spaces n ++ q) = parse_ascii q.
  Proof. induction n as [|n IH]; [reflexivity|]. change (spaces (S n) ++ q) with (32 :: spaces n ++ q). rewrite parse_skip; [exact IH|]. apply no_word. reflexivity. Qed.

  Lemma blank_nl : blank 10 = true. Proof. destruct (classes 10) as [-> _]; [lia|reflexivity]. Qed.
  Lemma blank_sp : blank 32 = true. Proof. destruct (classes 32) as [-> _]; [lia|reflexivity]. Qed.
  Lemma blank_spaces n : forallb blank (spaces n) = true.
  Proof. induction n; auto. cbn. rewrite blank_sp. auto. Qed.
  Lemma numeric_blank c : numeric digit 32 = false /\ numeric digit 10 = false /\ (decimal_char c = true -> blank c = false /\ numeric digit c = true).
  Proof.
    unfold numeric. destruct (classes 32) as [_ ->]; [lia|]. destruct (classes 10) as [_ ->]; [lia|]. split; auto. split; auto.
    unfold decimal_char. intros H.
    assert (R : 43 <= c <= 101).
    { rewrite !orb_true_iff, andb_true_iff, !Z.eqb_eq, !Z.leb_le in H. lia. }
    destruct (classes c) as [-> ->]; [lia|]. split.
    - unfold space. apply orb_false_iff. split; apply andb_false_iff; right; apply Z.leb_gt; lia.
    - rewrite !orb_true_iff, andb_true_iff, !Z.eqb_eq, !Z.leb_le in *. lia.
  Qed.
  Lemma letter_blank c : 97 <= c < 128 -> blank c = false.
  Proof. intros H. destruct (classes c) as [-> _]; [lia|]. unfold space. apply orb_false_iff. split; apply andb_false_iff; right; apply Z.leb_gt; lia. Qed.

  Lemma step_word w is r g : forallb (fun c => lower c =? c) w = true -> match_items (Word w :: is) (w ++ r) g = match_items is r g.
  Proof. intros H. cbn [Stl_Model.match_items]. rewrite word_at_app by exact H. reflexivity. Qed.
  Lemma step_blanks b is c r g : b <> [] -> forallb blank b = true -> blank c = false -> match_items (Blanks :: is) (b ++ c :: r) g = match_items is (c :: r) g.
  Proof. intros N B C. cbn [Stl_Model.match_items]. rewrite span_app by assumption. destruct b; [contradiction|reflexivity]. Qed.
  Lemma step_number a is c r g : decimal fmt a -> numeric digit c = false -> match_items (Number :: is) (fmt a ++ c :: r) g = match_items is (c :: r) (fmt a :: g).
  Proof.
    intros [N D] C. cbn [Stl_Model.match_items]. rewrite span_app; auto.
    - destruct (fmt a); [contradiction|reflexivity].
    - rewrite forallb_forall in *. intros x Hx. apply (numeric_blank x), D, Hx.
  Qed.
  (** blanks before a number *)
  Lemma step_to_number b a is r g : b <> [] -> forallb blank b = true -> decimal fmt a -> match_items (Blanks :: is) (b ++ fmt a ++ r) g = match_items is (fmt a ++ r) g.
  Proof.
    intros Nb B [N D]. destruct (fmt a) as [|c l]; [contradiction|]. cbn [app]. apply step_blanks; auto. cbn in D. apply andb_true_iff in D as [D _]. apply (numeric_blank c), D.
  Qed.
  (** blanks before a word *)
  Lemma step_to_word b w is r g : b <> [] -> forallb blank b = true -> w <> [] -> forallb (fun c => (97 <=? c) && (c <? 128)) w = true -> match_items (Blanks :: Word w :: is) (b ++ w ++ r) g = match_items is r g.
  Proof.
    intros Nb B Nw W. destruct w as [|c w]; [contradiction|]. change ((c :: w) ++ r) with (c :: w ++ r). cbn [forallb] in W. pose proof W as W'. apply andb_true_iff in W as [Wc _]. apply andb_true_iff in Wc as [W1 W2]. apply Z.leb_le in W1. apply Z.ltb_lt in W2.
    rewrite step_blanks; auto; [|apply letter_blank; lia]. change (c :: w ++ r) with ((c :: w) ++ r). apply step_word.
    rewrite forallb_forall. intros x Hx. change (forallb (fun c => (97 <=? c) && (c <? 128)) (c :: w) = true) in W'. rewrite forallb_forall in W'. apply W' in Hx. apply andb_true_iff in Hx as [H1 H2]. apply Z.leb_le in H1. apply Z.eqb_eq.
    unfold lower. replace (x <=? 90) with false by (symmetry; apply Z.leb_gt; lia). rewrite andb_false_r. reflexivity.
  Qed.
  (** three numbers after a blank, then a newline *)
  Definition three (is : list item) : list item := Blanks :: Number :: Blanks :: Number :: Blanks :: Number :: is.
  Lemma step_three x y z is r g : decimal3 fmt (x, y, z) -> match_items (three is) ([32] ++ numbers fmt (x, y, z) ++ newline ++ r) g = match_items is (newline ++ r) (fmt z :: fmt y :: fmt x :: g).
  Proof.
    intros (X & Y & Z). unfold three, numbers, newline. rewrite <- !app_assoc. pose proof blank_sp as Bs. pose proof (numeric_blank 32) as (N1 & N2 & _).
    assert (B1 : forallb blank [32] = true) by (cbn; rewrite Bs; reflexivity).
    rewrite step_to_number by (auto; discriminate). cbn [app]. rewrite step_number by auto.
    change (32 :: fmt y ++ 32 :: fmt z ++ 10 :: r) with ([32] ++ fmt y ++ 32 :: fmt z ++ 10 :: r). rewrite step_to_number by (auto; discriminate). rewrite step_number by auto.
    change (32 :: fmt z ++ 10 :: r) with ([32] ++ fmt z ++ 10 :: r). rewrite step_to_number by (auto; discriminate). rewrite step_number by auto. reflexivity.
  Qed.
  Lemma nl_spaces n : newline ++ spaces n <> [] /\ forallb blank (newline ++ spaces n) = true.
  Proof. split; [discriminate|]. cbn [newline app forallb]. rewrite blank_nl. apply blank_spaces. Qed.
  (** a line "vertex x y z", after the newline of the line before *)
  Lemma step_vertex v is r g : decimal3 fmt v -> match_items (Blanks :: Word vertex_word :: three is) (newline ++ vertex_line fmt v ++ r) g =
    match_items is (newline ++ r) (let '(x, y, z) := v in fmt z :: fmt y :: fmt x :: g).
  Proof.
    intros D. unfold vertex_line. destruct v as [[x y] z]. rewrite <- !app_assoc. destruct (nl_spaces 6) as [N B]. rewrite (app_assoc newline (spaces 6)).
    rewrite step_to_word; auto; try discriminate. apply step_three, D.
  Qed.
  Lemma items_shape : facet_items = Word facet_word :: Blanks :: Word normal_word :: three (Blanks :: Word outer_word :: Blanks :: Word loop_word ::
    Blanks :: Word vertex_word :: three (Blanks :: Word vertex_word :: three (Blanks :: Word vertex_word :: three [Blanks; Word endloop_word; Blanks; Word endfacet_word]))).
  Proof. reflexivity. Qed.
  Lemma match_facet t r : decimal_triangle fmt t -> exists g, match_items facet_items (skipn 2 (facet_text fmt t) ++ r) [] = Some (g, newline ++ r) /\ of_groups number g = Some (through fmt number t).
  Proof.
    intros (Dn & D0 & D1 & D2). unfold facet_text.
    replace (skipn 2 (spaces 2 ++ facet_word ++ [32] ++ normal_word ++ [32] ++ numbers fmt (normal t) ++ newline ++ spaces 4 ++ outer_word ++ [32] ++ loop_word ++ newline ++ vertex_line fmt (v0 t) ++ vertex_line fmt (v1 t) ++ vertex_line fmt (v2 t) ++ spaces 4 ++ endloop_word ++ newline ++ spaces 2 ++ endfacet_word ++ newline))
      with (facet_word ++ [32] ++ normal_word ++ [32] ++ numbers fmt (normal t) ++ newline ++ spaces 4 ++ outer_word ++ [32] ++ loop_word ++ newline ++ vertex_line fmt (v0 t) ++ vertex_line fmt (v1 t) ++ vertex_line fmt (v2 t) ++ spaces 4 ++ endloop_word ++ newline ++ spaces 2 ++ endfacet_word ++ newline) by reflexivity.
    rewrite <- !app_assoc. rewrite items_shape, step_word by reflexivity.
    assert (B1 : forallb blank [32] = true) by (cbn; rewrite blank_sp; reflexivity).
    destruct (normal t) as [[nx ny] nz] eqn:En. destruct (v0 t) as [[ax ay] az] eqn:E0. destruct (v1 t) as [[bx by_] bz] eqn:E1. destruct (v2 t) as [[cx cy] cz] eqn:E2.
    rewrite step_to_word by (auto; discriminate). rewrite step_three by exact Dn. rewrite (app_assoc newline (spaces 4)). destruct (nl_spaces 4) as [N4 B4]. destruct (nl_spaces 2) as [N2 B2].
    rewrite step_to_word by (auto; discriminate). rewrite step_to_word by (auto; discriminate).
    rewrite step_vertex by exact D0. rewrite step_vertex by exact D1. rewrite step_vertex by exact D2. rewrite (app_assoc newline (spaces 4)). rewrite step_to_word by (auto; discriminate).
    rewrite (app_assoc newline (spaces 2)). rewrite step_to_word by (auto; discriminate). cbn [Stl_Model.match_items]. eexists. split; [reflexivity|].
    unfold through, through3. rewrite En, E0, E1, E2. reflexivity.
  Qed.
  Lemma parse_facets ts r : Forall (decimal_triangle fmt) ts -> parse_ascii (text (map (facet_text fmt) ts) ++ r) = map (through fmt number) ts ++ parse_ascii r.
  Proof.
    induction 1 as [|t ts D _ IH]; auto. cbn [map text app]. rewrite <- app_assoc.
    change (facet_text fmt t) with (spaces 2 ++ skipn 2 (facet_text fmt t)). rewrite <- app_assoc, parse_spaces.
    destruct (match_facet t (text (map (facet_text fmt) ts) ++ r) D) as (g & M & G). rewrite (parse_hit _ _ _ _ M G). f_equal.
    refine (eq_trans (parse_line [] _ eq_refl) IH).
  Qed.
  Lemma contains_app_sep p a c b : ~ In c p -> contains p a = false -> contains p b = false -> contains p (a ++ c :: b) = false.
  Proof.
    intros N A B. induction a as [|x a IH]; cbn [app].
    - cbn [contains]. rewrite B, orb_false_r. apply not_true_iff_false. intros X. change (c :: b) with ([] ++ c :: b) in X. apply starts_sep in X; auto. cbn in A. rewrite orb_false_r in A. congruence.
    - cbn [contains] in *. apply orb_false_iff in A as [A1 A2]. rewrite IH by exact A2. rewrite orb_false_r. apply not_true_iff_false. intros X.
      change (x :: a ++ c :: b) with ((x :: a) ++ c :: b) in X. apply starts_sep in X; auto. congruence.
  Qed.
  Lemma ascii_roundtrip ts name : Forall (decimal_triangle fmt) ts -> mentions_facet name = false -> parse_ascii (write_ascii fmt ts name) = map (through fmt number) ts.
  Proof.
    intros D M. unfold write_ascii, mentions_facet in *.
    assert (L : forall w, forallb (fun c => lower c =? c) w = true -> contains facet_word w = false -> contains facet_word (map lower (w ++ [32] ++ name)) = false).
    { intros w W C. rewrite !map_app. cbn [map app]. change (lower 32) with 32. apply contains_app_sep; auto.
      - cbn. intuition discriminate.
      - replace (map lower w) with w; auto. rewrite forallb_forall in W. rewrite <- (map_id w) at 1. apply map_ext_in. intros a Ha. apply W in Ha. apply Z.eqb_eq in Ha. auto. }
    replace (solid_word ++ [32] ++ name ++ newline ++ text (map (facet_text fmt) ts) ++ endsolid_word ++ [32] ++ name ++ newline)
      with ((solid_word ++ [32] ++ name) ++ 10 :: text (map (facet_text fmt) ts) ++ (endsolid_word ++ [32] ++ name) ++ [10]) by (unfold newline; rewrite <- !app_assoc; reflexivity).
    rewrite parse_line by (apply L; auto). rewrite parse_facets by exact D. rewrite parse_line by (apply L; auto). unfold Stl_Model.parse_ascii. cbn [length Stl_Model.find_facets]. apply app_nil_r.
  Qed.
End Ascii.

(** a text file is not taken for a binary one: its count bytes would announce more than 7.5 GB *)
Lemma text_not_binary data : Forall (fun c => 9 <= c) data -> Z.of_nat (length data) < 7579354134 -> (exists r, data = solid_word ++ 32 :: r) -> is_binary data = false.
Proof.
  intros A L (r & ->). unfold is_binary. set (d := solid_word ++ 32 :: r) in *. destruct (length d <? 84)%nat eqn:C; auto. apply Nat.ltb_ge in C.
  assert (St : forall x, starts solid_word (map lower (strip (115 :: 111 :: 108 :: 105 :: 100 :: x))) = true).
  { intros x. unfold strip. change (lstrip (115 :: 111 :: 108 :: 105 :: 100 :: x)) with (115 :: 111 :: 108 :: 105 :: 100 :: x). cbn [rev]. rewrite <- !app_assoc. cbn [app].
    assert (Ls : forall y, exists z, lstrip (y ++ [100; 105; 108; 111; 115]) = z ++ [100; 105; 108; 111; 115]).
    { induction y as [|c y [z E]]; [exists []; reflexivity|]. cbn [app lstrip]. destruct (space c); eauto. exists (c :: y). reflexivity. }
    destruct (Ls (rev x)) as [z ->]. rewrite rev_app_distr. reflexivity. }
  assert (Hd : exists x, filter (fun c => c <? 128) (firstn 80 d) = 115 :: 111 :: 108 :: 105 :: 100 :: x) by (unfold d; cbn; eauto).
  destruct Hd as [x ->]. rewrite St.
  assert (Sk : exists a b c e rest, skipn 80 d = a :: b :: c :: e :: rest).
  { assert (Lk : (4 <= length (skipn 80 d))%nat) by (rewrite skipn_length; lia). destruct (skipn 80 d) as [|a [|b [|c [|e rest]]]]; cbn in Lk; try lia. eauto 6. }
  destruct Sk as (a & b & c & e & rest & E). rewrite E. cbn [firstn un32].
  assert (Q : Forall (fun c => 9 <= c) (skipn 80 d)). { rewrite <- (firstn_skipn 80 d) in A. apply Forall_app in A as [_ A]. exact A. }
  rewrite E in Q. inversion Q as [|? ? Qa Q1]; subst. inversion Q1 as [|? ? Qb Q2]; subst. inversion Q2 as [|? ? Qc Q3]; subst. inversion Q3 as [|? ? Qe _]; subst.
  replace (Z.of_nat (length d) =? 84 + (a + 256 * b + 65536 * c + 16777216 * e) * 50) with false; auto. symmetry. apply Z.eqb_neq. lia.
Qed.

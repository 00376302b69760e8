(** Model of yapcad/manufacturing/{data,connectors,segmentation,rings}.py: profiles and
    spines of connectors, segmentation of swept elements, rings.  Real arithmetic.  OCC
    (splitting, sweeping, unions) is a parameter that may fail; warning and instruction
    texts are dropped (warnings are counted). *)
From Coq Require Import String Reals List Bool ZArith.
From Verif Require Import Dict Xform_Model Path_Model.
From Verif Require Coll_Model.
Import ListNotations.
Open Scope string_scope.
Open Scope R_scope.
Open Scope list_scope.

(** data.py:13-39 CutPoint and its __post_init__ *)
Record cutpoint := CutPoint { cp_element : string; cp_t : R; cp_length : option R; cp_clear : R; cp_with : string }.
Definition cut_ok (c : cutpoint) : bool :=
  Rltb 0 (cp_t c) && Rltb (cp_t c) 1 && (String.eqb (cp_with c) "a" || String.eqb (cp_with c) "b" || String.eqb (cp_with c) "none").
Definition make_cut (e : string) (t : R) (l : option R) (cl : R) (w : string) : res cutpoint :=
  let c := CutPoint e t l cl w in if cut_ok c then Ok c else ValueError.
(** data.py:42-69 Segment; data.py:72-90 ConnectorSpec *)
Inductive ctype := Male | Female | NoConnector.
Record segment (S : Type) := Segment { s_id : string; s_solid : S; s_parent : string; s_range : R * R; s_tab : bool; s_type : ctype; s_mates : list string }.
Arguments Segment {S} _ _ _ _ _ _ _.
Arguments s_id {S} _. Arguments s_solid {S} _. Arguments s_parent {S} _. Arguments s_range {S} _. Arguments s_tab {S} _. Arguments s_type {S} _. Arguments s_mates {S} _.
Record connspec := ConnSpec { k_id : string; k_parent : string; k_center : R; k_length : R; k_clear : R }.

(** connectors.py:23-30 *)
Definition press : R := 18 / 100.
Definition length_factor : R := 3.
(** connectors.py:33-60 offset_rectangular_profile; 63-86 compute_inner_profile_dimensions *)
Definition shrink (w h c : R) : res (R * R) :=
  let w' := w - 2 * c in let h' := h - 2 * c in if Rleb w' 0 || Rleb h' 0 then ValueError else Ok (w', h').
(** connectors.py:89-111 compute_connector_profile_dimensions *)
Definition connector_profile (w h wall clear : R) : res (R * R) :=
  match shrink w h wall with Ok (iw, ih) => shrink iw ih clear | _ => ValueError end.
(** connectors.py:114-147 compute_connector_length *)
Definition connector_length (w h : R) : R := length_factor * Rmax w h.
(** connectors.py:230-245 the spine of an interior connector *)
Definition connector_spine (p : list seg) (t len : R) : res (list seg) :=
  match parameter_to_length p t with
  | Ok centre =>
    let s := Rmax 0 (centre - len / 2) in let e := Rmin (path_length p) (centre + len / 2) in
    extract p (length_to_parameter p s) (length_to_parameter p e)
  | _ => ValueError
  end.
(** connectors.py:258-297 compute_connector_spec *)
Definition connector_id (e : string) (t : R) : string := (e ++ "_conn_" ++ Coll_Model.decimal (trunc (t * 100)))%string.
Definition connector_spec (e : string) (t w h clear : R) : connspec := ConnSpec (connector_id e t) e t (connector_length w h) clear.
(** connectors.py:360-394 and 400-429: the spine of a terminal connector *)
Definition terminal_spine (p : list seg) (at_end : bool) (len : R) : res (list seg) :=
  match evaluate p (if at_end then 1 else 0) with
  | Ok (q, d) =>
    let m := mag d in
    let d := if Rltb 0 m then mkv (vx d / m) (vy d / m) (vz d / m) 0 else d in
    let d := if at_end then d else mkv (- vx d) (- vy d) (- vz d) 0 in
    Ok [Line (mkv (vx q) (vy q) (vz q) 0) (mkv (vx q + vx d * len) (vy q + vy d * len) (vz q + vz d * len) 0)]
  | _ => ValueError
  end.

(** sorted(cuts, key=parameter): stable *)
Fixpoint insert_cut (c : cutpoint) (l : list cutpoint) : list cutpoint :=
  match l with [] => [c] | d :: r => if Rltb (cp_t d) (cp_t c) || Reqb (cp_t d) (cp_t c) then d :: insert_cut c r else c :: l end.
Definition sort_cuts (l : list cutpoint) : list cutpoint := fold_left (fun acc c => insert_cut c acc) l [].

Section segmentation.
Context {S C : Type}.
(** split_solid_at_plane (segmentation.py:243-341), _union_connector_with_segment
    (344-380; failures are RuntimeErrors) and create_interior_connector *)
Inductive split_result := SplitOk (a b : S) | SplitFails | SplitRaises.
Record kit := Kit { split : S -> vec * vec -> split_result; build_connector : R -> R -> list seg -> R -> R -> R -> R -> option C; unite : S -> C -> option S }.
(** data.py:123-147 SweptElementProvenance, with metadata['solid'] and the dimensions
    _extract_profile_dimensions finds (segmentation.py:617-647) *)
Record provenance := Provenance { p_id : string; p_spine : list seg; p_wall : option R; p_dims : option (R * R); p_solid : option S }.
Record state := State { segs : list (segment S); conns : list connspec; graph : list (string * list string); warns : nat;
  remaining : S; prev : option string; start_t : R; next_has : bool }.
(** update the first segment with the given id (next(... if s.id == prev_segment_id)) *)
Fixpoint update_id (i : string) (f : segment S -> segment S) (l : list (segment S)) : list (segment S) :=
  match l with [] => [] | s :: r => if String.eqb (s_id s) i then f s :: r else s :: update_id i f r end.
Fixpoint find_id (i : string) (l : list (segment S)) : option (segment S) :=
  match l with [] => None | s :: r => if String.eqb (s_id s) i then Some s else find_id i r end.
Definition seg_id (e : string) (i : nat) : string := (e ++ "_seg_" ++ Coll_Model.decimal i)%string.
(** segmentation.py:428-431: the truth value of outer_w and outer_h and wall_thickness *)
Definition active (build : bool) (p : provenance) : option (R * R * R) :=
  match p_dims p, p_wall p with
  | Some (w, h), Some t => if build && negb (Reqb w 0) && negb (Reqb h 0) && negb (Reqb t 0) then Some (w, h, t) else None
  | _, _ => None
  end.
(** segmentation.py:481-536: what one cut does with its connector: the segment, the
    remaining solid, type and tab of the segment, whether the next one has the tab, the
    separate connectors and the warnings *)
Record joint := Joint { j_seg : S; j_rest : S; j_type : ctype; j_tab : bool; j_next : bool; j_conns : list connspec; j_warns : nat }.
Definition do_connector (k : kit) (p : provenance) (build un : bool) (c : cutpoint) (sg rest : S) (ty : ctype) (tab : bool) : option joint :=
  match active build p with
  | None => Some (Joint sg rest ty tab false [] 0)
  | Some (w, h, wall) =>
    let spec := connector_spec (p_id p) (cp_t c) w h (cp_clear c) in
    if un && negb (String.eqb (cp_with c) "none") then
      match build_connector k w h (p_spine p) (cp_t c) wall (k_length spec) (cp_clear c) with
      | None => None
      | Some cs =>
        if String.eqb (cp_with c) "a" then
          match unite k sg cs with
          | Some sg' => Some (Joint sg' rest Male true false [] 0)
          | None => Some (Joint sg rest ty tab false [spec] 1)
          end
        else if String.eqb (cp_with c) "b" then
          match unite k rest cs with
          | Some rest' => Some (Joint sg rest' (match ty with NoConnector => Female | _ => ty end) tab true [] 0)
          | None => Some (Joint sg rest ty tab false [spec] 1)
          end
        else Some (Joint sg rest ty tab false [] 0)
      end
    else Some (Joint sg rest ty tab false [spec] 0)
  end.
Definition add_mate (i : string) (s : segment S) : segment S := Segment (s_id s) (s_solid s) (s_parent s) (s_range s) (s_tab s) (s_type s) (s_mates s ++ [i]).
Definition set_type (t : ctype) (s : segment S) : segment S := Segment (s_id s) (s_solid s) (s_parent s) (s_range s) (s_tab s) t (s_mates s).
Definition is_male (t : ctype) : bool := match t with Male => true | _ => false end.
Definition is_none (t : ctype) : bool := match t with NoConnector => true | _ => false end.
(** segmentation.py:452-570: one turn of the loop *)
Definition cut_step (k : kit) (p : provenance) (build un : bool) (i : nat) (c : cutpoint) (s : state) : option state :=
  match compute_cut_plane (p_spine p) (cp_t c) with
  | Ok plane =>
    match split k (remaining s) plane with
    | SplitRaises => None
    | SplitFails => Some (State (segs s) (conns s) (graph s) (Datatypes.S (warns s)) (remaining s) (prev s) (start_t s) (next_has s))
    | SplitOk sg rest =>
      match do_connector k p build un c sg rest (if next_has s then Male else NoConnector) (next_has s) with
      | None => None
      | Some j =>
        let id := seg_id (p_id p) i in
        let mates := match prev s with Some q => [q] | None => [] end in
        let old := match prev s with
                   | Some q => update_id q (fun o => let o := add_mate id o in if is_male (j_type j) && is_none (s_type o) then set_type Female o else o) (segs s)
                   | None => segs s end in
        Some (State (old ++ [Segment id (j_seg j) (p_id p) (start_t s, cp_t c) (j_tab j) (j_type j) mates])
                    (conns s ++ j_conns j) (dset String.eqb id mates (graph s)) (warns s + j_warns j) (j_rest j) (Some id) (cp_t c) (j_next j))
      end
    end
  | _ => None
  end.
Fixpoint cut_loop (k : kit) (p : provenance) (build un : bool) (i : nat) (l : list cutpoint) (s : state) : option state :=
  match l with
  | [] => Some s
  | c :: r => match cut_step k p build un i c s with Some s' => cut_loop k p build un (Datatypes.S i) r s' | None => None end
  end.
(** segmentation.py:573-612: the last segment and the result *)
Record result := Result { r_segments : list (segment S); r_connectors : list connspec; r_graph : list (string * list string); r_warnings : nat }.
Definition finish (p : provenance) (n : nat) (s : state) : result :=
  let id := seg_id (p_id p) n in
  let ty := if next_has s then Male else
            match prev s with
            | Some q => match find_id q (segs s) with Some o => if is_male (s_type o) then Female else NoConnector | None => NoConnector end
            | None => NoConnector end in
  let mates := match prev s with Some q => [q] | None => [] end in
  let old := match prev s with Some q => update_id q (add_mate id) (segs s) | None => segs s end in
  Result (old ++ [Segment id (remaining s) (p_id p) (start_t s, 1) (next_has s) ty mates]) (conns s) (dset String.eqb id mates (graph s)) (warns s).
(** segmentation.py:383-614 segment_swept_element; None: an exception *)
Definition segment_swept_element (k : kit) (p : provenance) (cuts : list cutpoint) (build un : bool) : option result :=
  match cuts with
  | [] => None
  | _ =>
    let l := sort_cuts cuts in
    if negb (forallb (fun c => String.eqb (cp_element c) (p_id p)) l) then None else
    match p_solid p with
    | None => None
    | Some sol =>
      match cut_loop k p build un 0 l (State [] [] [] 0 sol None 0 false) with
      | Some s => Some (finish p (length l) s)
      | None => None
      end
    end
  end.
End segmentation.
Arguments kit S C : clear implicits. Arguments Kit {S C} _ _ _. Arguments split_result S : clear implicits. Arguments provenance S : clear implicits. Arguments state S : clear implicits. Arguments result S : clear implicits.

(** segmentation.py:725-776 compute_optimal_cuts, for max_segment_length > 0 *)
Definition optimal_cuts (e : string) (p : list seg) (max_len : R) : list cutpoint :=
  let total := path_length p in
  if Rleb total max_len then [] else
  let n := Datatypes.S (trunc (total / max_len)) in
  map (fun i => CutPoint e (INR i * (total / INR n) / total) None press "a") (List.seq 1 (n - 1)).

(** rings.py:46-66 the untilted ring; 68-76 the rest of create_ring_spine *)
Definition ring_vertex (r : R) (n i : nat) : vec := let a := INR i * (2 * PI / INR n) in mkv (r * cos a) (r * sin a) 0 0.
Definition flat_ring (r : R) (n : nat) : list seg := map (fun i => Line (ring_vertex r n i) (ring_vertex r n (Datatypes.S i))) (List.seq 0 n).
(** rings.py:98-104 (and 388-411, written out twice there): rotation about an axis *)
Inductive axis := AxX | AxY | AxZ.
Definition turn (ax : axis) (deg : R) (v : vec) : vec :=
  let c := cos (deg * PI / 180) in let s := sin (deg * PI / 180) in
  match ax with
  | AxX => mkv (vx v) (vy v * c - vz v * s) (vy v * s + vz v * c) 0
  | AxY => mkv (vx v * c + vz v * s) (vy v) (- vx v * s + vz v * c) 0
  | AxZ => mkv (vx v * c - vy v * s) (vx v * s + vy v * c) (vz v) 0
  end.
(** rings.py:79-118 _rotate_path3d, 121-147 _translate_path3d, on lines *)
Definition map_lines (f : vec -> vec) (p : list seg) : list seg := map (fun g => match g with Line s e => Line (f s) (f e) | g => g end) p.
Definition tilted (deg : R) (ax : axis) (v : vec) : vec := if Rltb (1 / 1000) (Rabs deg) then turn ax deg v else v.
Definition create_ring_spine (r : R) (centre : vec) (deg : R) (ax : axis) (n : nat) : list seg :=
  map_lines (fun v => padd v centre) (map_lines (tilted deg ax) (flat_ring r n)).
(** rings.py:324-371 compute_arc_attachment_point *)
Definition attachment (r at_deg : R) (centre : vec) (deg : R) (ax : axis) : vec * vec :=
  let a := at_deg * PI / 180 in
  (padd (tilted deg ax (mkv (r * cos a) (r * sin a) 0 0)) centre, tilted deg ax (mkv (- cos a) (- sin a) 0 0)).

(** segmentation.py:165-240 segment_closed_ring with solids as sets of points and exact
    half-space cuts (extract_segment_between_planes, 73-162) *)
Definition keep_below (plane : vec * vec) (x : vec) : Prop := dot (psub x (fst plane)) (snd plane) <= 0.
Definition between (solid : vec -> Prop) (p1 p2 : vec * vec) : vec -> Prop := fun x => solid x /\ keep_below p1 x /\ keep_below p2 x.
Fixpoint ring_ranges (a : R) (cuts : list R) : list (R * R) := match cuts with [] => [(a, 1)] | t :: r => (a, t) :: ring_ranges t r end.
Definition ring_piece (p : list seg) (solid : vec -> Prop) (rg : R * R) : option (vec -> Prop) :=
  match compute_cut_plane p (fst rg), compute_cut_plane p (snd rg) with
  | Ok (q1, d1), Ok (q2, d2) => Some (between solid (q1, mkv (- vx d1) (- vy d1) (- vz d1) 0) (q2, d2))
  | _, _ => None
  end.

(** rings.py:494-724 compute_ring_cuts_avoiding_holes.  math.ceil on x >= 0: *)
Definition ceil (x : R) : nat := Z.to_nat (- Int_part (- x)).
(** rings.py:538-548 (the sorting of the holes has no effect: only all(...) and a sorted list use them) *)
Definition zones (circ mind : R) (holes : list R) : list (R * R) := map (fun a => (a / 360 - mind / circ, a / 360 + mind / circ)) holes.
(** rings.py:550-567 is_cut_valid *)
Definition zone_allows (c : R) (z : R * R) : bool :=
  if Rltb (fst z) 0 then negb (Rltb c (snd z) || Rltb (1 + fst z) c)
  else if Rltb 1 (snd z) then negb (Rltb (fst z) c || Rltb c (snd z - 1))
  else negb (Rleb (fst z) c && Rleb c (snd z)).
Definition cut_valid (zs : list (R * R)) (c : R) : bool := forallb (zone_allows c) zs.
(** rings.py:603-635 find_nearest_valid_position: best_dist is infinite, so the first hit ends the loop *)
Fixpoint search (zs : list (R * R)) (ideal : R) (i n : nat) : option R :=
  match n with
  | O => None
  | Datatypes.S m =>
    let off := INR i / 1000 * (1 / 2) in
    if Rltb (ideal + off) 1 && cut_valid zs (ideal + off) then Some (ideal + off)
    else if Rltb 0 (ideal - off) && cut_valid zs (ideal - off) then Some (ideal - off)
    else search zs ideal (Datatypes.S i) m
  end.
Definition nearest (zs : list (R * R)) (a : R) : option R := if cut_valid zs a then Some a else search zs a 0 1000.
(** rings.py:638-645 *)
Fixpoint all_nearest (zs : list (R * R)) (l : list R) : option (list R) :=
  match l with
  | [] => Some []
  | a :: r => match nearest zs a with Some c => match all_nearest zs r with Some t => Some (c :: t) | None => None end | None => None end
  end.
(** sorted(set(l)) *)
Fixpoint insert_set (c : R) (l : list R) : list R :=
  match l with [] => [c] | d :: r => if Reqb c d then l else if Rltb c d then c :: l else d :: insert_set c r end.
Definition sort_set (l : list R) : list R := fold_left (fun acc c => insert_set c acc) l [].
(** rings.py:656-665 exclusion_points and 667 sort() *)
Definition exclusion_points (zs : list (R * R)) : list (R * R) :=
  flat_map (fun z => let '(s, e) := z in if Rltb s 0 then [(s + 1, 1); (0, e)] else if Rltb 1 e then [(s, 1); (0, e - 1)] else [(s, e)]) zs.
Fixpoint insert_pair (p : R * R) (l : list (R * R)) : list (R * R) :=
  match l with
  | [] => [p]
  | q :: r => if Rltb (fst q) (fst p) || (Reqb (fst q) (fst p) && Rleb (snd q) (snd p)) then q :: insert_pair p r else p :: l
  end.
(** rings.py:668-673 merged (kept in reverse here) *)
Definition merge_step (acc : list (R * R)) (p : R * R) : list (R * R) :=
  match acc with
  | (s, e) :: r => if Rleb (fst p) e then (s, Rmax e (snd p)) :: r else p :: acc
  | [] => [p]
  end.
(** rings.py:675-684 valid_regions *)
Fixpoint gaps (l : list (R * R)) : list (R * R) :=
  match l with
  | (_, e) :: (((s, _) :: _) as r) => (e, s) :: gaps r
  | [(_, e)] => if Rltb e 1 then [(e, 1)] else []
  | [] => []
  end.
Definition valid_regions (zs : list (R * R)) : list (R * R) :=
  match rev (fold_left merge_step (fold_left (fun acc p => insert_pair p acc) (exclusion_points zs) []) []) with
  | [] => [(0, 1)]
  | ((s, _) :: _) as m => (if Rltb 0 s then [(0, s)] else []) ++ gaps m
  end.
(** rings.py:686-704 candidate_cuts *)
Definition offsets : list R := [0; 1/100; 2/100; 5/100; 1/10; -(1/100); -(2/100); -(5/100); -(1/10)].
Definition candidates (zs : list (R * R)) (ideal : list R) : list R :=
  sort_set (filter (fun c => Rltb 0 c && Rltb c 1 && cut_valid zs c)
    (flat_map (fun rg => [fst rg + 1/1000; snd rg - 1/1000; (fst rg + snd rg) / 2]) (valid_regions zs) ++
     flat_map (fun a => filter (fun c => Rltb 0 c && Rltb c 1) (map (Rplus a) offsets)) ideal)).
(** itertools.combinations *)
Fixpoint combinations (n : nat) (l : list R) : list (list R) :=
  match n, l with
  | O, _ => [[]]
  | Datatypes.S _, [] => []
  | Datatypes.S m, x :: r => map (cons x) (combinations m r) ++ combinations n r
  end.
(** rings.py:569-589 compute_segment_sizes and segment_size_variance, on sorted cuts *)
Fixpoint sizes_from (a : R) (l : list R) : list R := match l with [] => [1 - a] | c :: r => (c - a) :: sizes_from c r end.
Definition variance (l : list R) : R :=
  let sz := sizes_from 0 l in let mean := fold_left Rplus sz 0 / INR (length sz) in fold_left (fun t s => t + (s - mean) * (s - mean)) sz 0.
(** rings.py:710-719 *)
Definition better (best : option (R * list R)) (c : list R) : option (R * list R) :=
  match best with Some (v, _) => if Rltb (variance c) v then Some (variance c, c) else best | None => Some (variance c, c) end.
Definition ideal_cuts (n : nat) : list R := map (fun i => 1 / INR n * INR (Datatypes.S i)) (List.seq 0 (n - 1)).
Definition num_segments (circ max_len : R) (target : option nat) : nat := match target with Some n => n | None => ceil (circ / max_len) end.
Definition ring_cuts (circ max_len : R) (holes : list R) (mind : R) (target : option nat) : list R :=
  let n := num_segments circ max_len target in
  if (n <? 2)%nat then [] else
  let zs := zones circ mind holes in
  let ideal := ideal_cuts n in
  if forallb (cut_valid zs) ideal then ideal else
  let fallback :=
    let cand := candidates zs ideal in
    if (length cand <? n - 1)%nat then ideal else
    match fold_left better (combinations (n - 1) cand) None with Some (_, c :: r) => c :: r | _ => ideal end in
  match all_nearest zs ideal with
  | Some l => let l := sort_set l in if (length l =? n - 1)%nat then l else fallback
  | None => fallback
  end.
(** segmentation.py:165-240 segment_closed_ring; None: an exception *)
Fixpoint insert_r (c : R) (l : list R) : list R := match l with [] => [c] | d :: r => if Rleb d c then d :: insert_r c r else c :: l end.
Fixpoint all_some {A} (l : list (option A)) : option (list A) :=
  match l with [] => Some [] | Some x :: r => match all_some r with Some t => Some (x :: t) | None => None end | None :: _ => None end.
Definition segment_closed_ring (solid : vec -> Prop) (p : list seg) (cuts : list R) : option (list (vec -> Prop)) :=
  match cuts with
  | [] => None
  | _ => let cuts := fold_left (fun acc c => insert_r c acc) cuts [] in
         if forallb (fun t => negb (Rleb t 0 || Rleb 1 t)) cuts then all_some (map (ring_piece p solid) (ring_ranges 0 cuts)) else None
  end.

(** Model of yapcad/kinematics: chain.py, part.py, frame.py, joint.py,
    transform.py.

    The chain is modelled over an arbitrary bundle [kin] of transforms, joints and
    joint values, so that nothing about numpy floats is assumed there; [real_kin]
    below is the instance with 4x4 matrices over the reals and with joint.py.
    Simplifications: frames carry an explicit transform (frame.py:73-75; the lookup
    of external datums, frame.py:78-107, is not modelled); renaming a part object or
    sharing one object between chains is not modelled; log messages are dropped;
    recursion is bounded by fuel and running out of fuel is the separate result
    [RecursionError]. *)
From Coq Require Import List String Bool Reals.
From Verif Require Import Dict Xform_Model.
Import ListNotations.
Open Scope string_scope.
Open Scope list_scope.

Inductive kres (A : Type) : Type := KOk (a : A) | KValueError | KRecursionError.
Arguments KOk {A} a.
Arguments KValueError {A}.
Arguments KRecursionError {A}.
Definition kbind {A B} (r : kres A) (f : A -> kres B) : kres B :=
  match r with KOk a => f a | KValueError => KValueError | KRecursionError => KRecursionError end.

(** Transforms, joints, joint values, descriptive data and their JSON forms. *)
Record kin := mkkin {
  T : Type; J : Type; V : Type; M : Type; TD : Type; JD : Type;
  one : T;                          (* Transform.identity, transform.py:64-67 *)
  mul : T -> T -> T;                (* Transform.__matmul__, transform.py:230-240 *)
  jtf : J -> T;                     (* Joint.get_transform, joint.py:78-117 *)
  jset : J -> V -> bool -> J;       (* Joint.set_value, joint.py:127-136 *)
  jvalue : J -> V;                  (* Joint.value *)
  fixedj : string -> J;             (* Joint(name, JointType.FIXED) *)
  nometa : M;
  tser : T -> TD; tde : TD -> kres T;   (* Transform.to_dict / from_dict, transform.py:316-344 *)
  jser : J -> JD; jde : JD -> kres J }. (* Joint.to_dict / from_dict, joint.py:138-162 *)

Definition DATUM := "GLOBAL_DATUM".   (* chain.py:60 *)
Definition ORIGIN := "ORIGIN".

Section Chain.
  Variable K : kin.

  (** part.py:56-77.  [p_meta] stands for stl_path, is_printable, material, color,
      description; [p_dirty] and [p_world] are the cache. *)
  Record part := mkpart {
    p_name : string; p_parent : option string; p_pframe : string; p_joint : J K;
    p_frames : list (string * T K); p_meta : M K; p_dirty : bool; p_world : option (T K) }.
  (** chain.py:62-72 *)
  Record chain := mkchain {
    c_name : string; c_parts : list (string * part); c_children : list (string * list string) }.

  (** part.py:79-86 __post_init__ *)
  Definition KinematicPart (name : string) (parent : option string) (pframe : string)
      (j : J K) (frames : list (string * T K)) (m : M K) : part :=
    let frames := if dmem String.eqb ORIGIN frames then frames
                  else dset String.eqb ORIGIN (one K) frames in
    mkpart name parent pframe j frames m true None.
  (** part.py:88-108 add_frame *)
  Definition part_add_frame (p : part) (f : string) (t : T K) : part :=
    mkpart (p_name p) (p_parent p) (p_pframe p) (p_joint p)
      (dset String.eqb f t (p_frames p)) (p_meta p) (p_dirty p) (p_world p).
  (** part.py:118-121 invalidate_cache *)
  Definition invalidate_cache (p : part) : part :=
    mkpart (p_name p) (p_parent p) (p_pframe p) (p_joint p) (p_frames p) (p_meta p) true None.
  (** part.py:123-126 set_cached_world_transform *)
  Definition set_cached (p : part) (t : T K) : part :=
    mkpart (p_name p) (p_parent p) (p_pframe p) (p_joint p) (p_frames p) (p_meta p) false (Some t).
  (** part.py:128-132 get_cached_world_transform *)
  Definition get_cached (p : part) : option (T K) := if p_dirty p then None else p_world p.
  (** joint.set_value on the part's joint (joint.py:127-136) *)
  Definition part_set_joint (p : part) (v : V K) (cl : bool) : part :=
    mkpart (p_name p) (p_parent p) (p_pframe p) (jset K (p_joint p) v cl) (p_frames p) (p_meta p)
      (p_dirty p) (p_world p).

  Definition get_part (c : chain) (n : string) : option part := dget String.eqb n (c_parts c).
  Definition set_part (c : chain) (n : string) (p : part) : chain :=
    mkchain (c_name c) (dset String.eqb n p (c_parts c)) (c_children c).
  (** chain.py:243-250 get_children *)
  Definition get_children (c : chain) (n : string) : list string :=
    match dget String.eqb n (c_children c) with Some l => l | None => [] end.

  (** chain.py:62-84 __init__ and _create_global_datum *)
  Definition KinematicChain (name : string) : chain :=
    let d := set_cached (KinematicPart DATUM None ORIGIN (fixedj K "global_joint") [] (nometa K)) (one K) in
    mkchain name [(DATUM, d)] [(DATUM, [])].

  (** chain.py:86-128 add_part *)
  Definition add_part (c : chain) (p : part) : kres chain :=
    if dmem String.eqb (p_name p) (c_parts c) then KValueError
    else
      let parent := match p_parent p with None => DATUM | Some q => q end in
      match get_part c parent with
      | None => KValueError
      | Some pp =>
          let pf := if dmem String.eqb (p_pframe p) (p_frames pp) then p_pframe p else ORIGIN in
          let p' := invalidate_cache
                      (mkpart (p_name p) (Some parent) pf (p_joint p) (p_frames p) (p_meta p)
                         (p_dirty p) (p_world p)) in
          let ps := dset String.eqb (p_name p) p' (c_parts c) in
          let ch := if dmem String.eqb parent (c_children c) then c_children c
                    else dset String.eqb parent [] (c_children c) in
          let old := match dget String.eqb parent ch with Some l => l | None => [] end in
          let ch := dset String.eqb parent (old ++ [p_name p]) ch in
          let ch := if dmem String.eqb (p_name p) ch then ch
                    else dset String.eqb (p_name p) [] ch in
          KOk (mkchain (c_name c) ps ch)
      end.

  (** chain.py:309-314 _invalidate_subtree *)
  Fixpoint invalidate_subtree (fuel : nat) (c : chain) (n : string) : kres chain :=
    match fuel with
    | O => KRecursionError
    | S k =>
        match get_part c n with
        | None => KOk c
        | Some p =>
            let c := set_part c n (invalidate_cache p) in
            fold_left (fun r ch => kbind r (fun c => invalidate_subtree k c ch))
              (get_children c n) (KOk c)
        end
    end.
  Definition depth (c : chain) : nat := S (List.length (c_parts c)).

  (** chain.py:130-145 set_joint_value *)
  Definition set_joint_value (c : chain) (n : string) (v : V K) (cl : bool) : kres chain :=
    match get_part c n with
    | None => KValueError
    | Some p => invalidate_subtree (depth c) (set_part c n (part_set_joint p v cl)) n
    end.
  (** chain.py:147-155 get_joint_value *)
  Definition get_joint_value (c : chain) (n : string) : kres (V K) :=
    match get_part c n with None => KValueError | Some p => KOk (jvalue K (p_joint p)) end.

  (** chain.py:157-205 get_world_transform; returns the chain with the caches the
      call has filled. *)
  Definition at_frame (p : part) (w : T K) (f : string) : T K :=
    if String.eqb f ORIGIN then w
    else match dget String.eqb f (p_frames p) with None => w | Some t => mul K w t end.
  Fixpoint world (fuel : nat) (c : chain) (n f : string) : kres (chain * T K) :=
    match fuel with
    | O => KRecursionError
    | S k =>
        match get_part c n with
        | None => KValueError
        | Some p =>
            kbind
              (if p_dirty p then
                 match p_parent p, String.eqb (p_name p) DATUM with
                 | None, _ | _, true => KOk (set_part c n (set_cached p (one K)))
                 | Some q, false =>
                     kbind (world k c q (p_pframe p)) (fun '(c1, pw) =>
                     KOk (set_part c1 n (set_cached p (mul K pw (jtf K (p_joint p))))))
                 end
               else KOk c)
              (fun c1 =>
                 match get_part c1 n with
                 | None => KValueError
                 | Some p1 =>
                     let w := match get_cached p1 with None => one K | Some w => w end in
                     KOk (c1, at_frame p1 w f)
                 end)
        end
    end.
  Definition get_world_transform (c : chain) (n f : string) : kres (chain * T K) :=
    world (depth c) c n f.

  (** part.add_frame on a part of the chain: chain.parts[n].add_frame(f, t) *)
  Definition add_frame (c : chain) (n f : string) (t : T K) : kres chain :=
    match get_part c n with
    | None => KValueError
    | Some p => KOk (set_part c n (part_add_frame p f t))
    end.

  (** Plain attribute assignment [part.joint.value = v] (the documented way to move a
      joint in the docstring of joint.py:60-66); [j] is the joint afterwards. *)
  Definition assign_joint (c : chain) (n : string) (j : J K) : kres chain :=
    match get_part c n with
    | None => KValueError
    | Some p => KOk (set_part c n (mkpart (p_name p) (p_parent p) (p_pframe p) j (p_frames p)
                                     (p_meta p) (p_dirty p) (p_world p)))
    end.

  (** chain.py:253-264 get_all_descendants *)
  Fixpoint get_all_descendants (fuel : nat) (c : chain) (n : string) : kres (list string) :=
    match fuel with
    | O => KRecursionError
    | S k =>
        fold_left (fun r ch => kbind r (fun acc =>
                     kbind (get_all_descendants k c ch) (fun d => KOk (acc ++ [ch] ++ d))))
          (get_children c n) (KOk [])
    end.
  (** chain.py:229-241 get_chain_to_root ([while current and current in parts]) *)
  Fixpoint chain_to_root (fuel : nat) (c : chain) (cur : option string) : kres (list string) :=
    match fuel with
    | O => KRecursionError
    | S k =>
        match cur with
        | None => KOk []
        | Some n =>
            if String.eqb n "" then KOk []
            else match get_part c n with
                 | None => KOk []
                 | Some p => kbind (chain_to_root k c (p_parent p)) (fun l => KOk (n :: l))
                 end
        end
    end.
  Definition get_chain_to_root (c : chain) (n : string) : kres (list string) :=
    chain_to_root (depth c) c (Some n).

  (** What a program can do with a chain. *)
  Inductive op :=
  | OAdd (n : string) (parent : option string) (pframe : string) (j : J K)
         (frames : list (string * T K)) (m : M K)
  | OSet (n : string) (v : V K) (cl : bool)
  | OQuery (n f : string)
  | OFrame (n f : string) (t : T K).
  (** A raised ValueError leaves the chain as it is (every check precedes the first
      update: chain.py:95-106, 138-139, 173-174). *)
  Definition apply_op (c : chain) (o : op) : kres chain :=
    let r := match o with
             | OAdd n q pf j fr m => add_part c (KinematicPart n q pf j fr m)
             | OSet n v cl => set_joint_value c n v cl
             | OQuery n f => kbind (get_world_transform c n f) (fun cw => KOk (fst cw))
             | OFrame n f t => add_frame c n f t
             end in
    match r with KValueError => KOk c | r => r end.

  (* ------------------------------------------------------------------ *)
  (** JSON form: part.py:138-155 and chain.py:339-363 *)
  Record pdata := mkpd {
    d_name : string; d_parent : option string; d_pframe : string; d_joint : JD K;
    d_frames : list (string * TD K); d_meta : M K; d_world : option (TD K) }.
  Record cdata := mkcd { cd_name : string; cd_parts : list (string * pdata) }.
  Definition part_to_dict (p : part) : pdata :=
    mkpd (p_name p) (p_parent p) (p_pframe p) (jser K (p_joint p))
      (map (fun ft => (fst ft, tser K (snd ft))) (p_frames p)) (p_meta p) None.
  (** chain.py:339-363 to_dict: iterates over self.parts (filling caches). *)
  Fixpoint to_dict_loop (incl : bool) (l : list (string * part)) (c : chain)
      : kres (chain * list (string * pdata)) :=
    match l with
    | [] => KOk (c, [])
    | (n, p) :: r =>
        if String.eqb n DATUM then to_dict_loop incl r c
        else
          let d := part_to_dict p in
          kbind (if incl then
                   kbind (get_world_transform c n ORIGIN) (fun '(c1, w) =>
                   KOk (c1, mkpd (d_name d) (d_parent d) (d_pframe d) (d_joint d) (d_frames d)
                              (d_meta d) (Some (tser K w))))
                 else KOk (c, d)) (fun '(c1, d) =>
          kbind (to_dict_loop incl r c1) (fun '(c2, ds) => KOk (c2, (n, d) :: ds)))
    end.
  Definition to_dict (c : chain) (incl : bool) : kres (chain * cdata) :=
    kbind (to_dict_loop incl (c_parts c) c) (fun '(c1, ds) => KOk (c1, mkcd (c_name c) ds)).

  (** chain.py:400-435 _topological_sort.  [ord i l] is the order in which CPython
      iterates over the set [remaining] with elements [l] in round [i]. *)
  Definition dependency (ds : list (string * pdata)) (d : pdata) : option string :=
    match d_parent d with
    | Some q => if String.eqb q "" then None else if dmem String.eqb q ds then Some q else None
    | None => None
    end.
  Definition mem (n : string) (l : list string) : bool := existsb (String.eqb n) l.
  Fixpoint topo_loop (ord : nat -> list string -> list string) (deps : list (string * option string))
      (fuel : nat) (i : nat) (remaining : list string) : list string :=
    match fuel, remaining with
    | _, [] => []
    | O, _ => []
    | S k, _ =>
        let isready n := match dget String.eqb n deps with
                         | Some (Some q) => negb (mem q remaining)
                         | _ => true
                         end in
        let it := ord i remaining in
        match filter isready it with
        | [] => it
        | ready => ready ++ topo_loop ord deps k (S i) (filter (fun n => negb (mem n ready)) remaining)
        end
    end.
  Definition topological_sort (ord : nat -> list string -> list string)
      (ds : list (string * pdata)) : list string :=
    let deps := map (fun nd => (fst nd, dependency ds (snd nd))) ds in
    topo_loop ord deps (List.length ds) 0 (map fst ds).

  (** part.py:157-176 KinematicPart.from_dict *)
  Fixpoint frames_from_dict (l : list (string * TD K)) : kres (list (string * T K)) :=
    match l with
    | [] => KOk []
    | (f, d) :: r => kbind (tde K d) (fun t => kbind (frames_from_dict r) (fun fs => KOk ((f, t) :: fs)))
    end.
  Definition part_from_dict (d : pdata) : kres part :=
    kbind (frames_from_dict (d_frames d)) (fun fs =>
    kbind (jde K (d_joint d)) (fun j =>
    KOk (KinematicPart (d_name d) (d_parent d) (d_pframe d) j fs (d_meta d)))).
  (** chain.py:377-398 from_dict *)
  Definition from_dict (ord : nat -> list string -> list string) (d : cdata) : kres chain :=
    fold_left (fun r n => kbind r (fun c =>
                 match dget String.eqb n (cd_parts d) with
                 | None => KOk c
                 | Some pd => kbind (part_from_dict pd) (add_part c)
                 end))
      (topological_sort ord (cd_parts d)) (KOk (KinematicChain (cd_name d))).
End Chain.
Arguments p_name {K}. Arguments p_parent {K}. Arguments p_pframe {K}. Arguments p_joint {K}.
Arguments p_frames {K}. Arguments p_meta {K}. Arguments p_dirty {K}. Arguments p_world {K}.
Arguments c_name {K}. Arguments c_parts {K}. Arguments c_children {K}.
Arguments get_part {K}. Arguments set_part {K}. Arguments get_children {K}.
Arguments add_part {K}. Arguments set_joint_value {K}. Arguments get_world_transform {K}.
Arguments add_frame {K}. Arguments invalidate_subtree {K}. Arguments world {K}. Arguments depth {K}.
Arguments get_joint_value {K}. Arguments at_frame {K}. Arguments set_cached {K}. Arguments get_cached {K}.
Arguments invalidate_cache {K}. Arguments part_set_joint {K}. Arguments part_add_frame {K}.
Arguments apply_op {K}. Arguments assign_joint {K}. Arguments to_dict {K}. Arguments from_dict {K}. Arguments topological_sort {K}.
Arguments OAdd {K}. Arguments OSet {K}. Arguments OQuery {K}. Arguments OFrame {K}.
Arguments get_all_descendants {K}. Arguments chain_to_root {K}. Arguments get_chain_to_root {K}.
Arguments to_dict_loop {K}. Arguments part_to_dict {K}. Arguments part_from_dict {K}.
Arguments d_name {K}. Arguments d_parent {K}. Arguments d_pframe {K}. Arguments d_joint {K}.
Arguments d_frames {K}. Arguments d_meta {K}. Arguments d_world {K}.
Arguments cd_name {K}. Arguments cd_parts {K}. Arguments dependency {K}. Arguments frames_from_dict {K}.

(* -------------------------------------------------------------------- *)
(** transform.py and joint.py over the reals.  A Transform is its 4x4 matrix
    ([rows] of Xform_Model). *)
Open Scope R_scope.
(** transform.py:64-67 *)
Definition t_identity : rows := ident_rows.
(** transform.py:69-82 *)
Definition t_translation (x y z : R) : rows :=
  mkrows (mkv 1 0 0 x) (mkv 0 1 0 y) (mkv 0 0 1 z) (mkv 0 0 0 1).
(** math.radians *)
Definition radians (d : R) : R := d * PI / 180.
(** transform.py:84-97 *)
Definition t_rot_x (a : R) : rows :=
  let c := cos (radians a) in let s := sin (radians a) in
  mkrows (mkv 1 0 0 0) (mkv 0 c (- s) 0) (mkv 0 s c 0) (mkv 0 0 0 1).
(** transform.py:99-112 *)
Definition t_rot_y (a : R) : rows :=
  let c := cos (radians a) in let s := sin (radians a) in
  mkrows (mkv c 0 s 0) (mkv 0 1 0 0) (mkv (- s) 0 c 0) (mkv 0 0 0 1).
(** transform.py:114-127 *)
Definition t_rot_z (a : R) : rows :=
  let c := cos (radians a) in let s := sin (radians a) in
  mkrows (mkv c (- s) 0 0) (mkv s c 0 0) (mkv 0 0 1 0) (mkv 0 0 0 1).
(** transform.py:230-240 __matmul__: the numpy matrix product *)
Definition t_mul (a b : rows) : rows := mm (mulMM (mkmat a false) (mkmat b false)).
(** transform.py:129-144 *)
Definition t_euler (rx ry rz : R) : rows := t_mul (t_mul (t_rot_x rx) (t_rot_y ry)) (t_rot_z rz).
(** transform.py:146-183 from_axis_angle.  [K @ K] is written out; 1e-10 is the
    cut-off of line 166. *)
Definition vec3 := (R * R * R)%type.
Definition norm3 (a : vec3) : R := let '(x, y, z) := a in sqrt (x * x + y * y + z * z).
Definition tiny : R := 1 / 10000000000.
Definition rodrigues (x y z c s : R) : rows :=
  let k := 1 - c in
  mkrows (mkv (1 + s * 0 + k * (- (z * z) - y * y)) (0 + s * - z + k * (y * x)) (0 + s * y + k * (z * x)) 0)
         (mkv (0 + s * z + k * (x * y)) (1 + s * 0 + k * (- (z * z) - x * x)) (0 + s * - x + k * (z * y)) 0)
         (mkv (0 + s * - y + k * (x * z)) (0 + s * x + k * (y * z)) (1 + s * 0 + k * (- (y * y) - x * x)) 0)
         (mkv 0 0 0 1).
Definition t_axis_angle (axis : vec3) (a : R) : rows :=
  let n := norm3 axis in
  if Rltb n tiny then t_identity
  else let '(x, y, z) := axis in
       rodrigues (x / n) (y / n) (z / n) (cos (radians a)) (sin (radians a)).
(** transform.py:185-205 *)
Definition t_position_rpy (x y z r p w : R) : rows := t_mul (t_translation x y z) (t_euler r p w).
(** transform.py:242-263 inverse: transposed rotation block, last row 0 0 0 1 *)
Definition t_inverse (m : rows) : rows :=
  let r i j := vget (rget m i) j in
  let tx := r 0%nat 3%nat in let ty := r 1%nat 3%nat in let tz := r 2%nat 3%nat in
  let row i := mkv (r 0%nat i) (r 1%nat i) (r 2%nat i)
                 (- r 0%nat i * tx + - r 1%nat i * ty + - r 2%nat i * tz) in
  mkrows (row 0%nat) (row 1%nat) (row 2%nat) (mkv 0 0 0 1).
(** transform.py:265-273 *)
Definition t_point (m : rows) (p : vec3) : vec3 :=
  let '(x, y, z) := p in
  let r := mulMV (mkmat m false) (mkv x y z 1) in (vx r, vy r, vz r).
(** transform.py:275-283 *)
Definition t_vector (m : rows) (p : vec3) : vec3 :=
  let '(x, y, z) := p in
  let r := mulMV (mkmat m false) (mkv x y z 0) in (vx r, vy r, vz r).
(** transform.py:316-344: the dictionary always holds "matrix", which from_dict
    reads; the other two keys are kept here because JSON consumers see them. *)
Record tdict := mktd { td_translation : vec3; td_rotation : vec3; td_matrix : option rows }.

(** math.atan2 in radians, (y, x) *)
Definition atan2 (y x : R) : R :=
  if Rltb 0 x then atan (y / x)
  else if Rltb x 0 then (if Rleb 0 y then atan (y / x) + PI else atan (y / x) - PI)
  else if Rltb 0 y then PI / 2 else if Rltb y 0 then - (PI / 2) else 0.
(** math.degrees *)
Definition degrees (r : R) : R := r * 180 / PI.
(** transform.py:285-314 to_euler_xyz *)
Definition t_to_euler (m : rows) : vec3 :=
  let r i j := vget (rget m i) j in
  let sy := sqrt (r 0%nat 0%nat * r 0%nat 0%nat + r 1%nat 0%nat * r 1%nat 0%nat) in
  if Rltb (1 / 1000000) sy then
    (degrees (atan2 (r 2%nat 1%nat) (r 2%nat 2%nat)), degrees (atan2 (- r 2%nat 0%nat) sy),
     degrees (atan2 (r 1%nat 0%nat) (r 0%nat 0%nat)))
  else
    (degrees (atan2 (- r 1%nat 2%nat) (r 1%nat 1%nat)), degrees (atan2 (- r 2%nat 0%nat) sy), 0).
Definition t_to_dict (m : rows) : tdict :=
  mktd (vget (rget m 0) 3, vget (rget m 1) 3, vget (rget m 2) 3) (t_to_euler m) (Some m).
Definition t_from_dict (d : tdict) : kres rows :=
  match td_matrix d with
  | Some m => KOk m
  | None => let '(x, y, z) := td_translation d in
            let '(rx, ry, rz) := td_rotation d in KOk (t_position_rpy x y z rx ry rz)
  end.

(** joint.py:17-33 *)
Inductive jtype := FIXED | REVOLUTE | PRISMATIC | CYLINDRICAL | SPHERICAL.
(** joint.py:68-76 *)
Record joint := mkjoint {
  j_name : string; j_type : jtype; j_base : rows; j_axis : vec3; j_value : R;
  j_min : R; j_max : R }.
Definition default_joint (n : string) : joint :=
  mkjoint n FIXED t_identity (0, 0, 1) 0 (-180) 180.
(** joint.py:78-117 get_transform *)
Definition joint_transform (j : joint) : rows :=
  match j_type j with
  | FIXED => j_base j
  | REVOLUTE | CYLINDRICAL => t_mul (j_base j) (t_axis_angle (j_axis j) (j_value j))
  | PRISMATIC =>
      let n := norm3 (j_axis j) in
      let '(x, y, z) := j_axis j in
      let '(x, y, z) := if Rltb tiny n then (x / n, y / n, z / n) else (x, y, z) in
      t_mul (j_base j) (t_translation (x * j_value j) (y * j_value j) (z * j_value j))
  | SPHERICAL => j_base j
  end.
(** Python's min(a,b) and max(a,b) (the first of equal arguments) *)
Definition pymin (a b : R) : R := if Rltb b a then b else a.
Definition pymax (a b : R) : R := if Rltb a b then b else a.
(** joint.py:119-125 clamp_value *)
Definition clamp_value (j : joint) (v : R) : R := pymax (j_min j) (pymin (j_max j) v).
(** joint.py:127-136 set_value *)
Definition joint_set_value (j : joint) (v : R) (cl : bool) : joint :=
  mkjoint (j_name j) (j_type j) (j_base j) (j_axis j) (if cl then clamp_value j v else v) (j_min j) (j_max j).
(** JointType(...).value and JointType(value) (joint.py:29-33) *)
Definition jtype_value (t : jtype) : string :=
  match t with FIXED => "fixed" | REVOLUTE => "revolute" | PRISMATIC => "prismatic"
             | CYLINDRICAL => "cylindrical" | SPHERICAL => "spherical" end.
Definition jtype_of (s : string) : kres jtype :=
  if String.eqb s "fixed" then KOk FIXED else if String.eqb s "revolute" then KOk REVOLUTE
  else if String.eqb s "prismatic" then KOk PRISMATIC
  else if String.eqb s "cylindrical" then KOk CYLINDRICAL
  else if String.eqb s "spherical" then KOk SPHERICAL else KValueError.
(** joint.py:138-162; absent keys are [None] *)
Record jdict := mkjd {
  jd_name : string; jd_type : option string; jd_axis : option vec3; jd_value : option R;
  jd_limits : option (R * R); jd_base : option tdict }.
Definition joint_to_dict (j : joint) : jdict :=
  mkjd (j_name j) (Some (jtype_value (j_type j))) (Some (j_axis j)) (Some (j_value j))
    (Some (j_min j, j_max j)) (Some (t_to_dict (j_base j))).
Definition joint_from_dict (d : jdict) : kres joint :=
  kbind (jtype_of (match jd_type d with Some s => s | None => "fixed" end)) (fun ty =>
  kbind (match jd_base d with Some t => t_from_dict t | None => KOk t_identity end) (fun b =>
  let lim := match jd_limits d with Some l => l | None => (-180, 180) end in
  KOk (mkjoint (jd_name d) ty b
         (match jd_axis d with Some a => a | None => (0, 0, 1) end)
         (match jd_value d with Some v => v | None => 0 end) (fst lim) (snd lim)))).

(** The instance used by the library. *)
Definition real_kin : kin :=
  mkkin rows joint R string tdict jdict t_identity t_mul joint_transform joint_set_value j_value
    default_joint "" t_to_dict t_from_dict joint_to_dict joint_from_dict.

(** chain.py:207-227 get_relative_transform *)
Definition get_relative_transform (c : chain real_kin) (from to ff tf : string)
    : kres (chain real_kin * rows) :=
  kbind (get_world_transform c from ff) (fun '(c1, fw) =>
  kbind (get_world_transform c1 to tf) (fun '(c2, tw) => KOk (c2, t_mul (t_inverse fw) tw))).

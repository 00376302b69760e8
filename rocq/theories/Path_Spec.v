(** What a path3d means, stated without the code's formulas for angles. *)
From Coq Require Import Reals List.
From Verif Require Import Xform_Model Path_Model.
Import ListNotations.
Open Scope R_scope.

(** the point reached from [s] by turning through the angle [a], right handed, about the
    line through [c] along [n] ([s - c] is perpendicular to [n]) *)
Definition turned (c n s : vec) (a : R) : vec :=
  let x := vx s - vx c in let y := vy s - vy c in let z := vz s - vz c in
  let kx := vx n / mag n in let ky := vy n / mag n in let kz := vz n / mag n in
  mkv (vx c + cos a * x + sin a * (ky * z - kz * y))
      (vy c + cos a * y + sin a * (kz * x - kx * z))
      (vz c + cos a * z + sin a * (kx * y - ky * x)) 0.

(** a well formed segment: a line, or an arc whose two ends lie on one circle about the
    centre, in the plane through the centre with the given normal (lengths below the
    1e-10 of the code count as zero) *)
Definition flat3 (v : vec) : Prop := vw v = 0.
Definition good (g : seg) : Prop :=
  match g with
  | Line s e => flat3 s /\ flat3 e
  | Arc c s e n => flat3 c /\ flat3 s /\ flat3 e /\ tiny10 <= dist s c /\ tiny10 <= mag n /\
      dist e c = dist s c /\ dot n (sub s c) = 0 /\ dot n (sub e c) = 0
  | Other => False
  end.
Definition seg_start (g : seg) : vec := match g with Line s _ => s | Arc _ s _ _ => s | Other => mkv 0 0 0 0 end.
Definition seg_end (g : seg) : vec := match g with Line _ e => e | Arc _ _ e _ => e | Other => mkv 0 0 0 0 end.
(** the segments follow one another without gaps *)
Fixpoint joined (p : list seg) : Prop :=
  match p with
  | g :: ((h :: _) as r) => seg_end g = seg_start h /\ joined r
  | _ => True
  end.

(** [along g u q]: q is the point at the fraction u of the segment g; [angle_of] is the
    angle, less than a full turn, that the arc goes through *)
Definition angle_of (c s e n : vec) (al : R) : Prop := 0 <= al < 2 * PI /\ turned c n s al = e.
Definition along (g : seg) (u : R) (q : vec) : Prop :=
  match g with
  | Line s e => q = mkv ((1 - u) * vx s + u * vx e) ((1 - u) * vy s + u * vy e) ((1 - u) * vz s + u * vz e) 0
  | Arc c s e n => exists al, angle_of c s e n al /\ q = turned c n s (u * al)
  | Other => False
  end.
Definition has_length (g : seg) (l : R) : Prop :=
  match g with
  | Line s e => l = dist s e
  | Arc c s e n => exists al, angle_of c s e n al /\ l = dist s c * al
  | Other => False
  end.

(** [q] is a point of the path at a parameter in [a, b] *)
Definition passes (p : list seg) (a b : R) (q : vec) : Prop :=
  exists t, a <= t <= b /\ exists d, evaluate p t = Ok (q, d).
(** the derivative of a moving point *)
Definition moves (f : R -> vec) (t : R) (v : vec) : Prop :=
  derivable_pt_lim (fun x => vx (f x)) t (vx v) /\ derivable_pt_lim (fun x => vy (f x)) t (vy v) /\
  derivable_pt_lim (fun x => vz (f x)) t (vz v).

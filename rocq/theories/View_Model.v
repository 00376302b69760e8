(** The viewer's configuration: src/yapcad/viewer/config.py. *)
From Coq Require Import ZArith String List Bool.
From Verif Require Import Dict Json_Model.
Import ListNotations.
Open Scope Z_scope.
Open Scope string_scope.
Open Scope list_scope.

Inductive err := TypeE | AttributeE.
Inductive res (A : Type) := Got (a : A) | Raise (e : err).
Arguments Got {A}.
Arguments Raise {A}.
Definition bind {A B} (r : res A) (k : A -> res B) : res B := match r with Got a => k a | Raise e => Raise e end.

(** Python values.  Of a number only whether it is zero matters here: it is
    represented by an integer. *)
Inductive val :=
  | VNone | VBool (b : bool) | VNum (n : Z) | VStr (s : text)
  | VTup (l : list val) | VList (l : list val) | VDict (d : list (text * val)).
Definition dict := list (text * val).
Definition get (k : text) (d : dict) : option val := dget teq k d.
Definition put (k : text) (v : val) (d : dict) : dict := dset teq k v d.

(** bool(v) *)
Definition truthy (v : val) : bool :=
  match v with
  | VNone => false | VBool b => b | VNum n => negb (Z.eqb n 0)
  | VStr [] | VTup [] | VList [] | VDict [] => false | _ => true
  end.
(** The elements list(v) and tuple(v) have. *)
Definition elems (v : val) : res (list val) :=
  match v with
  | VTup l | VList l => Got l
  | VStr s => Got (map (fun c => VStr [c]) s)
  | VDict d => Got (map (fun kv => VStr (fst kv)) d)
  | _ => Raise TypeE
  end.

(** What pathlib and str do: [norm s] is str(Path(s)), [join p s] is
    str(Path(p) / s), [lower] is str.lower. *)
Record host := mkhost { norm : text -> text; join : text -> text -> text; lower : text -> text }.

Section WithHost.
Variable H : host.

(** config.py:107-150: the thirteen fields, as given or by default. *)
Record fields := mkfields {
  stl : val; positions : val; command : val; shots : val;
  win : val; title : val; bg : val;
  opacity : val; xray : val; color : val; palette : val; multi : val; poll : val }.
(** config.py:152-161: and what __post_init__ adds.  A path is represented by its text. *)
Record config := mkconfig {
  raw : fields; stl_path : text; positions_path : option text; command_path : option text; shots_path : text }.

(** Path(v): refuses what is not a string. *)
Definition path_of (v : val) : res text := match v with VStr s => Got (norm H s) | _ => Raise TypeE end.
Definition opt_path (v : val) : res (option text) := if truthy v then bind (path_of v) (fun p => Got (Some p)) else Got None.

(** config.py:152-161 __post_init__. *)
Definition create (f : fields) : res config :=
  bind (path_of (stl f)) (fun s => bind (opt_path (positions f)) (fun p => bind (opt_path (command f)) (fun c =>
  bind (if truthy (shots f) then path_of (shots f) else Got (join H s (t "renders"))) (fun r =>
  Got (mkconfig f s p c r))))).

(** config.py:183-205 get_color; [.get] is no attribute of what is not a dict. *)
Definition get_color (c : config) (name : text) : res val :=
  match palette (raw c) with
  | VDict d => match get (lower H name) d with Some v => Got v | None => Got (color (raw c)) end
  | _ => Raise AttributeE
  end.

(** {k: f(v) for k, v in d.items()} *)
Fixpoint map_items (f : val -> res val) (d : dict) : res dict :=
  match d with [] => Got [] | (k, v) :: d => bind (f v) (fun v' => bind (map_items f d) (fun d' => Got ((k, v') :: d'))) end.
Definition to_list (v : val) : res val := bind (elems v) (fun l => Got (VList l)).
Definition to_tuple (v : val) : res val := bind (elems v) (fun l => Got (VTup l)).
Definition items (f : val -> res val) (v : val) : res val :=
  match v with VDict d => bind (map_items f d) (fun d' => Got (VDict d')) | _ => Raise AttributeE end.

(** config.py:207-230 to_dict: str() of a string is the string; a field that
    __post_init__ accepted is a string when truthy. *)
Definition opt_str (v : val) : val := if truthy v then v else VNone.
Definition to_dict (c : config) : res dict :=
  let f := raw c in
  bind (to_list (win f)) (fun w => bind (to_list (bg f)) (fun b => bind (to_list (color f)) (fun d =>
  bind (items to_list (palette f)) (fun p => Got [
    (t "stl_dir", stl f); (t "positions_file", opt_str (positions f)); (t "command_file", opt_str (command f));
    (t "screenshot_dir", VStr (shots_path c)); (t "window_size", w); (t "window_title", title f);
    (t "background_color", b); (t "default_opacity", opacity f); (t "xray_opacity", xray f);
    (t "default_color", d); (t "color_palette", p); (t "enable_multi_viewport", multi f);
    (t "command_poll_interval_ms", poll f)])))).

(** config.py:107-150: the default values. *)
Definition rgb (a b c : Z) : val := VTup [VNum a; VNum b; VNum c].
Definition default_palette : val := VDict [
  (t "gray", rgb 40 40 40); (t "red", rgb 80 20 20); (t "green", rgb 20 80 20); (t "blue", rgb 20 40 80);
  (t "yellow", rgb 80 80 20); (t "orange", rgb 80 50 20); (t "purple", rgb 60 20 80); (t "cyan", rgb 20 70 80);
  (t "brown", rgb 50 30 15); (t "dark", rgb 15 15 15)].
Definition field_names : list text := [
  t "stl_dir"; t "positions_file"; t "command_file"; t "screenshot_dir"; t "window_size"; t "window_title"; t "background_color";
  t "default_opacity"; t "xray_opacity"; t "default_color"; t "color_palette"; t "enable_multi_viewport"; t "command_poll_interval_ms"].

(** cls( **data ), config.py:260: TypeError for a key that is no field or a missing stl_dir. *)
Definition call (d : dict) : res config :=
  if forallb (fun kv => existsb (teq (fst kv)) field_names) d then
    match get (t "stl_dir") d with
    | None => Raise TypeE
    | Some s =>
        let or k v := match get k d with Some x => x | None => v end in
        create (mkfields s (or (t "positions_file") VNone) (or (t "command_file") VNone) (or (t "screenshot_dir") VNone)
          (or (t "window_size") (VTup [VNum 1600; VNum 1000])) (or (t "window_title") (VStr (t "yapCAD Assembly Viewer")))
          (or (t "background_color") (rgb 12 12 15)) (or (t "default_opacity") (VNum 100)) (or (t "xray_opacity") (VNum 40))
          (or (t "default_color") (rgb 40 40 40)) (or (t "color_palette") default_palette)
          (or (t "enable_multi_viewport") (VBool true)) (or (t "command_poll_interval_ms") (VNum 10000)))
    end
  else Raise TypeE.

(** config.py:232-260 from_dict: rewrites the caller's dict in place, and then
    calls the class with it.  The result and the dict afterwards. *)
Definition convert (k : text) (f : val -> res val) (st : res unit * dict) : res unit * dict :=
  match st with
  | (Raise e, d) => (Raise e, d)
  | (Got _, d) => match get k d with
                  | None => (Got tt, d)
                  | Some v => match f v with Got v' => (Got tt, put k v' d) | Raise e => (Raise e, d) end
                  end
  end.
Definition from_dict (d : dict) : res config * dict :=
  let '(r, d') := convert (t "color_palette") (items to_tuple) (convert (t "default_color") to_tuple
    (convert (t "background_color") to_tuple (convert (t "window_size") to_tuple (Got tt, d)))) in
  (bind r (fun _ => call d'), d').
End WithHost.

(** Model of yapcad/assembly/resolver.py.  Geometry is an abstract type and the
    boolean engine an arbitrary function that may fail (any Python exception is
    caught at resolver.py:305, so [None] stands for every exception).  Messages are
    kept as structured values instead of formatted strings; log.warning/log.debug
    output is not modelled. *)
From Coq Require Import List String ZArith Bool.
From Verif Require Import Dict.
Import ListNotations.
Open Scope string_scope.
Open Scope list_scope.

(** The operation namespace of one part (metadata.py:525-579); absent keys are
    [None].  [o_targets = None] or [Some []] is falsy for resolver.py:148. *)
Record op := mkop {
  o_kind : option string; o_targets : option (list string); o_priority : option Z;
  o_policy : option string; o_consume : option bool; o_stage : option string;
  o_through : option bool }.
(** get_operation_metadata (metadata.py:525-534) of a part without an operation
    namespace is {}. *)
Definition op0 := mkop None None None None None None None.

Inductive msg :=
| MNoTarget (cutter : string)                       (* resolver.py:149-152 *)
| MMissing (cutter part : string)                   (* resolver.py:292 *)
| MFailed (kind cutter part : string).              (* resolver.py:306 *)
Inductive logline :=
| LApply (kind cutter part : string) (priority : Z) (* resolver.py:298-300 *)
| LErr (m : msg)
| LUnknownStage (cutter stage : string)             (* resolver.py:398-401 *)
| LSkip (stage : string) | LStage (stage : string) (n : nat). (* resolver.py:414, 417 *)

Definition truthy (s : option string) : bool := match s with Some "" => false | Some _ => true | None => false end.
Definition target_list (o : op) : list string := match o_targets o with Some l => l | None => [] end.
Definition prio (o : op) : Z := match o_priority o with Some p => p | None => 50%Z end.
Definition consumes (o : op) : bool := match o_consume o with Some b => b | None => true end.
Definition policy (o : op) : string := match o_policy o with Some s => s | None => "strict" end.
Definition kind (o : op) : string := match o_kind o with Some s => s | None => "subtract" end.

Section Resolver.
  Variable geom : Type.
  (** _apply_boolean (resolver.py:156-203) with the engine fixed. *)
  Variable apply_boolean : geom -> geom -> string -> option geom.

  (** resolver.py:72-93 *)
  Record rpart := mkrp { r_geom : geom; r_applied : list string; r_retained : list string;
                         r_warnings : list msg; r_errors : list msg }.
  Record result := mkres { s_parts : list (string * rpart); s_log : list logline;
                           s_success : bool; s_errors : list msg }.
  (** {part_id: metadata}; a part without an operation namespace maps to [op0]. *)
  Definition metas := list (string * op).
  Definition parts := list (string * geom).

  (** resolver.py:131-141 _collect_cutters *)
  Definition collect_cutters (m : metas) : list (string * op) :=
    filter (fun c => truthy (o_kind (snd c))) m.
  (** resolver.py:143-153 _validate_cutters *)
  Definition validate_cutters (cs : list (string * op)) : list msg :=
    flat_map (fun c => match target_list (snd c) with [] => [MNoTarget (fst c)] | _ => [] end) cs.
  (** resolver.py:205-218 _handle_policy: (errors, warnings) *)
  Definition handle_policy (p : string) (m : msg) (ew : list msg * list msg) : list msg * list msg :=
    if String.eqb p "strict" then ((fst ew ++ [m])%list, snd ew)
    else if String.eqb p "warn" then (fst ew, (snd ew ++ [m])%list)
    else ew.

  Definition entry := (Z * string * op)%type.
  Definition e_prio (e : entry) : Z := fst (fst e).
  (** target_ops.setdefault(t, []).append(e) (resolver.py:257-259) *)
  Definition push (t : string) (e : entry) (idx : list (string * list entry)) :=
    dset String.eqb t (match dget String.eqb t idx with Some l => l | None => [] end ++ [e]) idx.
  (** resolver.py:254-259 *)
  Definition index (cs : list (string * op)) : list (string * list entry) :=
    fold_left (fun idx c => fold_left (fun idx t => push t (prio (snd c), fst c, snd c) idx)
                                      (target_list (snd c)) idx) cs [].
  (** list.sort(key=...) (resolver.py:262-263): stable insertion sort; every stable
      sort gives the same list.  Priorities are integers here (any numbers in the
      code). *)
  Fixpoint insert (e : entry) (l : list entry) : list entry :=
    match l with
    | [] => [e]
    | x :: r => if (e_prio e <? e_prio x)%Z then e :: l else x :: insert e r
    end.
  Definition sort (l : list entry) : list entry := fold_left (fun acc e => insert e acc) l [].

  (** resolver.py:283-313: the loop over one target's operations.  State:
      (geometry, applied, retained, errors/warnings, log). *)
  Record tstate := mkts { t_geom : geom; t_applied : list string; t_retained : list string;
                          t_ew : list msg * list msg; t_log : list logline }.
  Definition tstep (ps : parts) (pid : string) (s : tstate) (e : entry) : tstate :=
    let '(pr, cid, o) := e in
    match dget String.eqb cid ps with
    | None => mkts (t_geom s) (t_applied s) (t_retained s)
                   (handle_policy (policy o) (MMissing cid pid) (t_ew s)) (t_log s)
    | Some cg =>
        let log := t_log s ++ [LApply (kind o) cid pid pr] in
        let ret := if consumes o then t_retained s else t_retained s ++ [cid] in
        match apply_boolean (t_geom s) cg (kind o) with
        | Some g => mkts g (t_applied s ++ [cid]) ret (t_ew s) log
        | None => mkts (t_geom s) (t_applied s) ret
                       (handle_policy (policy o) (MFailed (kind o) cid pid) (t_ew s)) log
        end
    end.
  Definition run_target (ps : parts) (pid : string) (g : geom) (es : list entry) : tstate :=
    fold_left (tstep ps pid) es (mkts g [] [] ([], []) []).

  (** resolver.py:275-320: the loop over the parts.  [retained_all] is the list of
      every retained cutter id. *)
  Record pstate := mkps { p_res : list (string * rpart); p_retall : list string;
                          p_log : list logline; p_errs : list msg }.
  Definition pstep (ps : parts) (tops : list (string * list entry)) (consumed : list string)
             (s : pstate) (pg : string * geom) : pstate :=
    let '(pid, g) := pg in
    match dget String.eqb pid tops with
    | None =>
        if existsb (String.eqb pid) consumed then s
        else mkps (dset String.eqb pid (mkrp g [] [] [] []) (p_res s)) (p_retall s) (p_log s) (p_errs s)
    | Some es =>
        let t := run_target ps pid g es in
        mkps (dset String.eqb pid (mkrp (t_geom t) (t_applied t) (t_retained t) (snd (t_ew t)) (fst (t_ew t))) (p_res s))
             (p_retall s ++ t_retained t) (p_log s ++ t_log t) (p_errs s ++ fst (t_ew t))
    end.
  (** resolver.py:326-330: retained cutters not yet in the output. *)
  Definition rstep (ps : parts) (retall : list string) (res : list (string * rpart)) (c : string * op) :=
    if dmem String.eqb (fst c) res then res
    else if existsb (String.eqb (fst c)) retall then
      match dget String.eqb (fst c) ps with
      | Some g => dset String.eqb (fst c) (mkrp g [] [] [] []) res
      | None => res   (* parts[cutter_id]: unreachable KeyError, see res_retained_present *)
      end
    else res.
  Definition untouched (ps : parts) : list (string * rpart) :=
    map (fun pg => (fst pg, mkrp (snd pg) [] [] [] [])) ps.

  (** resolver.py:233-337 BasicResolver.resolve *)
  Definition basic_resolve (ps : parts) (m : metas) : result :=
    let cs := collect_cutters m in
    let verr := validate_cutters cs in
    match verr with
    | _ :: _ => mkres (untouched ps) (map LErr verr) false verr
    | [] =>
        let tops := map (fun te => (fst te, sort (snd te))) (index cs) in
        let consumed := map fst (filter (fun c => consumes (snd c)) cs) in
        let s := fold_left (pstep ps tops consumed) ps (mkps [] [] [] []) in
        let res := fold_left (rstep ps (p_retall s)) cs (p_res s) in
        mkres res (p_log s) (match p_errs s with [] => true | _ => false end) (p_errs s)
    end.

  (** resolver.py:391-404: bucket of a stage: the cutters whose stage tag is that
      stage, or, for the last stage, also those with no tag or an unknown one. *)
  Definition bucket_of (stages : list string) (o : op) : string :=
    match o_stage o with
    | Some t => if existsb (String.eqb t) stages then t else last stages ""
    | None => last stages ""
    end.
  Definition bucket (stages : list string) (cs : list (string * op)) (s : string) : list (string * op) :=
    filter (fun c => String.eqb (bucket_of stages (snd c)) s) cs.
  Definition stage_warnings (stages : list string) (cs : list (string * op)) : list logline :=
    flat_map (fun c => match o_stage (snd c) with
                       | Some t => if existsb (String.eqb t) stages then [] else [LUnknownStage (fst c) t]
                       | None => [] end) cs.
  (** resolver.py:421-429: this stage's cutters first, then every other part with
      its operation namespace stripped. *)
  Definition stage_meta (m : metas) (b : list (string * op)) : metas :=
    map (fun c => (fst c, match dget String.eqb (fst c) m with Some o => o | None => op0 end)) b ++
    map (fun c => (fst c, op0)) (filter (fun c => negb (dmem String.eqb (fst c) b)) m).

  Record sstate := mkss { ss_parts : parts; ss_acc : list (string * list string);
                          ss_log : list logline; ss_errs : list msg }.
  (** resolver.py:411-445: one stage. *)
  Definition sstep (stages : list string) (m : metas) (cs : list (string * op)) (s : sstate) (stage : string) : sstate :=
    match bucket stages cs stage with
    | [] => mkss (ss_parts s) (ss_acc s) (ss_log s ++ [LSkip stage]) (ss_errs s)
    | b =>
        let r := basic_resolve (ss_parts s) (stage_meta m b) in
        mkss (map (fun pr => (fst pr, r_geom (snd pr))) (s_parts r))
             (fold_left (fun acc pr =>
                dset String.eqb (fst pr)
                  (match dget String.eqb (fst pr) acc with Some l => l | None => [] end ++ r_applied (snd pr)) acc)
                (s_parts r) (ss_acc s))
             (ss_log s ++ [LStage stage (List.length b)] ++ s_log r)
             (ss_errs s ++ s_errors r)
    end.
  (** resolver.py:370-457 StagedResolver.resolve ([stages] non-empty, else the
      constructor raises ValueError). *)
  Definition staged_resolve (stages : list string) (ps : parts) (m : metas) : result :=
    let cs := collect_cutters m in
    match validate_cutters cs with
    | (_ :: _) as verr => mkres (untouched ps) (map LErr verr) false verr
    | [] =>
        let s := fold_left (sstep stages m cs) stages (mkss ps [] (stage_warnings stages cs) []) in
        mkres (map (fun pg => (fst pg,
                 mkrp (snd pg) (match dget String.eqb (fst pg) (ss_acc s) with Some l => l | None => [] end) [] [] []))
                 (ss_parts s))
              (ss_log s) (match ss_errs s with [] => true | _ => false end) (ss_errs s)
    end.
End Resolver.
Arguments mkrp {geom}. Arguments r_geom {geom}. Arguments r_applied {geom}. Arguments r_retained {geom}.
Arguments r_warnings {geom}. Arguments r_errors {geom}.
Arguments mkres {geom}. Arguments s_parts {geom}. Arguments s_log {geom}. Arguments s_success {geom}. Arguments s_errors {geom}.
Arguments mkts {geom}. Arguments t_geom {geom}. Arguments t_applied {geom}. Arguments t_retained {geom}. Arguments t_ew {geom}. Arguments t_log {geom}.
Arguments mkps {geom}. Arguments p_res {geom}. Arguments p_retall {geom}. Arguments p_log {geom}. Arguments p_errs {geom}.
Arguments mkss {geom}. Arguments ss_parts {geom}. Arguments ss_acc {geom}. Arguments ss_log {geom}. Arguments ss_errs {geom}.
Arguments basic_resolve {geom}. Arguments staged_resolve {geom}. Arguments untouched {geom}.

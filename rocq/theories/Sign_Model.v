(** Model of src/yapcad/package/signing.py.
    A package is its manifest (the dictionary yaml.safe_load gives back) and its other files.
    gpg and ssh-keygen are the operations of [crypto]; sha256 is a parameter.  Text files are
    lists of code points.  Not modelled: a missing manifest, temporary files, a signature path
    that names a directory, undecodable signature files, list_signatures. *)
From Coq Require Import ZArith String List Bool.
From Verif Require Import Dict Json_Model Pkg_Model.
Import ListNotations.
Open Scope Z_scope.
Open Scope list_scope.

(** signing.py:41-46 *)
Inductive status := VALID | VALID_UNTRUSTED | INVALID | S_ERROR.
Inductive method := GPG | SSH.
Inductive gpg_answer := GGood | GNoKey | GBad | GNotFound.
Inductive ssh_answer := AGood | ACouldNotVerify | AOther | ANotFound.
Record crypto := Crypto {
  hash : text -> text;                                         (* sha256(...).digest().hex() *)
  frepr : Z -> text;                                           (* float.__repr__ *)
  gpg_sign : text -> text -> option (text * text * text);      (* key id, content: signature, signer, key id *)
  ssh_sign : text -> text -> option (text * text * text);      (* key path, content: signature, signer, fingerprint *)
  gpg_check : text -> text -> gpg_answer;                      (* content, signature *)
  ssh_check : text -> text -> ssh_answer }.                    (* content, signature, with the allowed signers *)

Section Sign.
  Variables (C : crypto) (loc : text -> text).
  (** signing.py:115-139 _compute_canonical_manifest_hash; TypeError of json.dumps *)
  Definition without_signatures (d : dict) : dict := filter (fun kv => negb (teq (fst kv) (t "signatures"))) d.
  Definition manifest_hash (d : dict) : res text :=
    let d' := without_signatures d in
    if representable (JObj d') then Ok (hash C (dumps (frepr C) (JObj d'))) else Raise "TypeError".
  (** signing.py:142-150 _create_signable_content *)
  Definition signable (h : text) : text := t "ycpkg-manifest-v1" ++ 10 :: h ++ [10].

  Definition package := (dict * files)%type.
  (** signing.py:400-401: replace '@', ' ' and '/' by '_', first 20 characters *)
  Definition safe_name (s : text) : text := firstn 20 (map (fun c => if (c =? 64) || (c =? 32) || (c =? 47) then 95 else c) s).
  Definition sig_entry (signer m key time file : text) : json :=
    JObj [(t "signer", JStr signer); (t "method", JStr m); (t "key_id", JStr key); (t "timestamp", JStr time); (t "signature_file", JStr file)].
  (** signing.py:341-437 sign_package; [key]: key_id or key_path, [name]: signer_name ("" for None) *)
  Definition sign_package (m : method) (key name time : text) (add : bool) (p : package) : package * res unit :=
    let (d, fs) := p in
    match manifest_hash d with
    | Raise e => (p, Raise e)
    | Ok h =>
      match (match m with GPG => gpg_sign C key (signable h) | SSH => ssh_sign C key (signable h) end) with
      | None => (p, Raise "SigningError")
      | Some (sig, signer, kid) =>
        let file := match m with GPG => t "signatures/manifest.sig.asc" | SSH => t "signatures/manifest.sig." ++ safe_name signer end in
        let fs' := dset teq (loc file) sig fs in
        let e := sig_entry (if teq name [] then signer else name) (match m with GPG => t "gpg" | SSH => t "ssh" end) kid time file in
        match (if add then dget teq (t "signatures") d else None) with
        | Some (JList l) => ((dset teq (t "signatures") (JList (l ++ [e])) d, fs'), Ok tt)
        | Some _ => ((d, fs'), Raise "AttributeError")
        | None => ((dset teq (t "signatures") (JList [e]) d, fs'), Ok tt)
        end
      end
    end.

  (** signing.py:49-107 SignatureInfo, VerificationResult *)
  Record info := Info { i_signer : json; i_method : method; i_file : text; i_status : status }.
  Record result := Result { signatures : list info; errors : list text; warnings : list text }.
  Definition is_status (s : status) (i : info) : bool :=
    match s, i_status i with VALID, VALID | VALID_UNTRUSTED, VALID_UNTRUSTED | INVALID, INVALID | S_ERROR, S_ERROR => true | _, _ => false end.
  Definition is_valid (r : result) : bool := existsb (is_status VALID) (signatures r).
  Definition trusted_signers (r : result) : Z := Z.of_nat (List.length (filter (is_status VALID) (signatures r))).
  Definition untrusted_signers (r : result) : Z := Z.of_nat (List.length (filter (is_status VALID_UNTRUSTED) (signatures r))).
  Definition overall_status (r : result) : status :=
    match errors r with
    | _ :: _ => S_ERROR
    | [] => if trusted_signers r >? 0 then VALID else if untrusted_signers r >? 0 then VALID_UNTRUSTED
            else if existsb (is_status INVALID) (signatures r) then INVALID else S_ERROR
    end.
  (** signing.py:237-275 _verify_gpg_signature, 278-338 _verify_ssh_signature;
      [allowed]: an allowed_signers file was given and exists *)
  Definition verify_one (m : method) (allowed : bool) (content sig : text) : status :=
    match m with
    | GPG => match gpg_check C content sig with GGood => VALID | GNoKey => VALID_UNTRUSTED | GBad => INVALID | GNotFound => S_ERROR end
    | SSH => if allowed then
               match ssh_check C content sig with AGood => VALID | ACouldNotVerify => INVALID | AOther => VALID_UNTRUSTED | ANotFound => S_ERROR end
             else VALID_UNTRUSTED
    end.
  (** sig_entry.get(key, default) for a path: root / non-string is a TypeError *)
  Definition sig_path (e : dict) : res text :=
    match dget teq (t "signature_file") e with None => Ok [] | Some (JStr p) => Ok p | Some _ => Raise "TypeError" end.
  Definition sig_method (e : dict) : option method :=
    match dget teq (t "method") e with
    | None => Some GPG
    | Some (JStr s) => if teq s (t "gpg") then Some GPG else if teq s (t "ssh") then Some SSH else None
    | Some _ => None
    end.
  Definition sig_signer (default : text) (e : dict) : json := match dget teq (t "signer") e with Some v => v | None => JStr default end.
  (** signing.py:483-529, one entry: information, or an error message *)
  Definition verify_entry (allowed : bool) (content : text) (fs : files) (e : json) : res (info + text) :=
    match e with
    | JObj e =>
      match sig_method e with
      | None => Ok (inr (t "Unknown signature method"))
      | Some m =>
        let* p := sig_path e in
        match dget teq (loc p) fs with
        | None => Ok (inl (Info (sig_signer (t "unknown") e) m p S_ERROR))
        | Some sig => Ok (inl (Info (sig_signer (t "unknown") e) m p (verify_one m allowed content sig)))
        end
      end
    | _ => Raise "AttributeError"
    end.
  Fixpoint verify_entries (allowed : bool) (content : text) (fs : files) (l : list json) : res (list info * list text) :=
    match l with
    | [] => Ok ([], [])
    | e :: r => let* x := verify_entry allowed content fs e in
                let* (is, es) := verify_entries allowed content fs r in
                Ok (match x with inl i => (i :: is, es) | inr m => (is, m :: es) end)
    end.
  (** signing.py:440-531 verify_package *)
  Definition verify_package (H : host) (allowed : bool) (p : package) : res result :=
    let (d, fs) := p in
    let* h := manifest_hash d in
    let v := match dget teq (t "signatures") d with Some v => v | None => JList [] end in
    if truthy H v then
      match v with
      | JList l => let* (is, es) := verify_entries allowed (signable h) fs l in Ok (Result is es [])
      | _ => Raise "AttributeError"
      end
    else Ok (Result [] [] [t "Package has no signatures"]).
End Sign.

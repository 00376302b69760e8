(** Specification vocabulary for the lexer properties: positions in a text, skippable
    text, nesting of INDENT/DEDENT, spellings of literals.  Independent of the
    lexer's functions; only the token record is shared. *)
From Coq Require Import ZArith List Bool.
From Verif Require Import Lex_Model.
Import ListNotations.
Open Scope Z_scope.

(** The characters of [src] from offset a to offset b (excluded). *)
Definition between (src : list Z) (a b : Z) : list Z :=
  firstn (Z.to_nat (b - a)) (skipn (Z.to_nat a) src).
(** The character at an offset. *)
Definition char_at (src : list Z) (a : Z) : option Z := nth_error src (Z.to_nat a).
(** 1-based line and column of an offset: newlines before it, and characters since
    the last of them. *)
Fixpoint line_col (text : list Z) (line col : Z) : Z * Z :=
  match text with
  | [] => (line, col)
  | c :: r => if c =? 10 then line_col r (line + 1) 1 else line_col r line (col + 1)
  end.
Definition position (src : list Z) (off : Z) : Z * Z := line_col (between src 0 off) 1 1.

(** Tokens that carry source text. *)
Definition ordinary (ty : ttype) : Prop := ty <> INDENT /\ ty <> DEDENT /\ ty <> NEWLINE /\ ty <> EOF.

(** Inside of nested block comments: [inside d l] - l closes exactly d levels, at its
    end. *)
Inductive inside : nat -> list Z -> Prop :=
  | in_done : inside 0 []
  | in_open d l : inside (S (S d)) l -> inside (S d) (47 :: 42 :: l)
  | in_close d l : inside d l -> inside (S d) (42 :: 47 :: l)
  | in_other d c l : inside (S d) l -> ~ (exists r, c :: l = 47 :: 42 :: r) ->
      ~ (exists r, c :: l = 42 :: 47 :: r) -> inside (S d) (c :: l).
(** Text that carries no token: blanks, # comments up to the end of the line, /* */
    comments and, where [nl] allows them, line breaks. *)
Inductive gap (nl : bool) (src : list Z) : Z -> Z -> Prop :=
  | gap_nil a : gap nl src a a
  | gap_char a b c : char_at src a = Some c -> c = 32 \/ c = 9 \/ (c = 10 /\ nl = true) ->
      gap nl src (a + 1) b -> gap nl src a b
  | gap_line a m b : char_at src a = Some 35 -> a < m ->
      (forall i, a <= i < m -> char_at src i <> Some 10) ->
      (m = Z.of_nat (length src) \/ char_at src m = Some 10) -> gap nl src m b -> gap nl src a b
  | gap_block a m b l : between src a m = 47 :: 42 :: l -> inside 1 l -> a < m -> gap nl src m b -> gap nl src a b.

(** How many brackets are open after a token list (a stray closer is ignored). *)
Definition bracket_step (d : Z) (ty : ttype) : Z :=
  match ty with
  | LPAREN | LBRACKET | LBRACE => d + 1
  | RPAREN | RBRACKET | RBRACE => Z.max 0 (d - 1)
  | _ => d end.
Definition open_brackets (ts : list token) : Z := fold_left (fun d t => bracket_step d (t_type t)) ts 0.

(** Nesting: how many INDENTs are open after a token list when unmatched DEDENTs are
    ignored, and the strict version that fails on them. *)
Fixpoint unclosed (d : nat) (ts : list token) : nat :=
  match ts with
  | [] => d
  | t :: r => match t_type t with
              | INDENT => unclosed (S d) r | DEDENT => unclosed (pred d) r | _ => unclosed d r end
  end.
Fixpoint nest (d : nat) (ts : list token) : option nat :=
  match ts with
  | [] => Some d
  | t :: r => match t_type t with
              | INDENT => nest (S d) r
              | DEDENT => match d with O => None | S d => nest d r end
              | _ => nest d r end
  end.
Definition balanced (ts : list token) : Prop := nest 0 ts = Some 0%nat.
Definition count_ty (ty : ttype) (ts : list token) : nat :=
  length (filter (fun t => teqb (t_type t) ty) ts).

(** Hexadecimal digits and their values. *)
Inductive hexd : Z -> Z -> Prop :=
  | hexd_dec d : 0 <= d <= 9 -> hexd (48 + d) d
  | hexd_low d : 10 <= d <= 15 -> hexd (87 + d) d
  | hexd_up d : 10 <= d <= 15 -> hexd (55 + d) d.
(** Ways to write a character inside a quoted string with quote [q] (34 is the double
    quote, 39 the single one, 92 the backslash).  [multi] says triple quotes. *)
Inductive spells (q : Z) (multi : bool) : Z -> list Z -> Prop :=
  | sp_raw c : c <> q -> c <> 92 -> (c = 10 -> multi = true) -> spells q multi c [c]
  | sp_newline : spells q multi 10 [92; 110]
  | sp_tab : spells q multi 9 [92; 116]
  | sp_return : spells q multi 13 [92; 114]
  | sp_backslash : spells q multi 92 [92; 92]
  | sp_dquote : spells q multi 34 [92; 34]
  | sp_squote : spells q multi 39 [92; 39]
  | sp_nul : spells q multi 0 [92; 48]
  | sp_hex a b va vb : hexd a va -> hexd b vb -> spells q multi (va * 16 + vb) [92; 120; a; b]
  | sp_uni a b c d va vb vc vd : hexd a va -> hexd b vb -> hexd c vc -> hexd d vd ->
      spells q multi (((va * 16 + vb) * 16 + vc) * 16 + vd) [92; 117; a; b; c; d].
Inductive spelled (q : Z) (multi : bool) : list Z -> list Z -> Prop :=
  | spl_nil : spelled q multi [] []
  | spl_cons c cs t ts : spells q multi c t -> spelled q multi cs ts -> spelled q multi (c :: cs) (t ++ ts).

(** Value of a digit string in a base. *)
Definition horner (base : Z) (ds : list Z) : Z := fold_left (fun acc d => acc * base + d) ds 0.
(** [digits isd ds txt]: txt writes the digits ds. *)
Definition decd (c d : Z) : Prop := 0 <= d <= 9 /\ c = 48 + d.
Definition bind (c d : Z) : Prop := 0 <= d <= 1 /\ c = 48 + d.
(** Digits with underscores (95) anywhere after the first digit. *)
Inductive us_digits (isd : Z -> Z -> Prop) : list Z -> list Z -> Prop :=
  | usd_nil : us_digits isd [] []
  | usd_us ds l : us_digits isd ds l -> us_digits isd ds (95 :: l)
  | usd_digit c d ds l : isd c d -> us_digits isd ds l -> us_digits isd (d :: ds) (c :: l).

(** ASCII names: a letter or underscore followed by letters, digits, underscores. *)
Definition name_start (c : Z) : Prop := 65 <= c <= 90 \/ 97 <= c <= 122 \/ c = 95.
Definition name_char (c : Z) : Prop := name_start c \/ 48 <= c <= 57.

(** The reserved words of the language reference and their token types. *)
Definition reserved : list (list Z * ttype) :=
  [([109;111;100;117;108;101], MODULE); ([117;115;101], USE); ([100;101;102], DEF);
   ([114;101;116;117;114;110], RETURN); ([101;109;105;116], EMIT); ([105;102], IF); ([101;108;105;102], ELIF);
   ([101;108;115;101], ELSE); ([102;111;114], FOR); ([105;110], IN); ([119;104;105;108;101], WHILE);
   ([97;115;115;101;114;116], ASSERT); ([112;97;115;115], PASS); ([97;110;100], AND); ([111;114], OR);
   ([110;111;116], NOT); ([84;114;117;101], BOOL_LITERAL); ([70;97;108;115;101], BOOL_LITERAL)].
(** The operators and delimiters. *)
Definition operators : list (list Z * ttype) :=
  [([45;62], ARROW); ([61;62], DOUBLE_ARROW); ([61;61], EQ); ([33;61], NE); ([60;61], LE); ([62;61], GE);
   ([46;46], RANGE); ([42;42], DOUBLE_STAR); ([47;47], DOUBLE_SLASH); ([43;61], PLUS_ASSIGN); ([45;61], MINUS_ASSIGN);
   ([40], LPAREN); ([41], RPAREN); ([91], LBRACKET); ([93], RBRACKET); ([123], LBRACE); ([125], RBRACE);
   ([43], PLUS); ([45], MINUS); ([42], STAR); ([47], SLASH); ([37], PERCENT); ([60], LT); ([62], GT); ([61], ASSIGN);
   ([58], COLON); ([44], COMMA); ([46], DOT); ([63], QUESTION); ([64], AT)].

(** Model of the DSL lexer: src/yapcad/dsl/lexer.py (class Lexer, tokenize) and the
    token types of src/yapcad/dsl/tokens.py.

    A character is its code point (Z); a source text is a list of code points.
    What Python's str methods say about non-ASCII characters is a parameter
    ([unicode]), so every theorem holds whatever the Unicode tables contain.
    Simplifications, once for the whole file: error objects keep only their kind
    (no message, no source line); filename is dropped from locations; the CPython
    recursion limit (lexer.py:494 recurses once per newline inside brackets) and
    memory exhaustion are not modelled. *)
From Coq Require Import ZArith String Ascii List Bool.
Import ListNotations.
Open Scope Z_scope.
Open Scope list_scope.

(** tokens.py:18-157, class TokenType (every member, in order). *)
Inductive ttype :=
  | INT_LITERAL | FLOAT_LITERAL | STRING_LITERAL | BOOL_LITERAL | IDENTIFIER | MODULE | USE
  | DEF | RETURN | EMIT | IF | ELIF | ELSE | FOR | IN | WHILE | ASSERT | PASS | AS | MATCH
  | EXPORT | NATIVE | COMMAND | LET | REQUIRE | WITH | PYTHON | FN | EXPORTS | CLOSE | CLOSE_C0
  | CLOSE_C1 | TYPE_INT | TYPE_FLOAT | TYPE_STRING | TYPE_BOOL | TYPE_POINT | TYPE_POINT2D
  | TYPE_POINT3D | TYPE_VECTOR | TYPE_VECTOR2D | TYPE_VECTOR3D | TYPE_TRANSFORM
  | TYPE_LINE_SEGMENT | TYPE_ARC | TYPE_CIRCLE | TYPE_ELLIPSE | TYPE_PARABOLA | TYPE_HYPERBOLA
  | TYPE_CATMULLROM | TYPE_NURBS | TYPE_BEZIER | TYPE_PATH2D | TYPE_PATH3D | TYPE_PROFILE2D
  | TYPE_REGION2D | TYPE_LOOP3D | TYPE_SURFACE | TYPE_SHELL | TYPE_SOLID | TYPE_LIST
  | TYPE_DICT | PLUS | MINUS | STAR | SLASH | DOUBLE_SLASH | PERCENT | DOUBLE_STAR | LT | GT
  | LE | GE | EQ | NE | AND | OR | NOT | ASSIGN | PLUS_ASSIGN | MINUS_ASSIGN | LBRACE | RBRACE
  | LPAREN | RPAREN | LBRACKET | RBRACKET | COLON | SEMICOLON | COMMA | DOT | ARROW
  | DOUBLE_ARROW | RANGE | QUESTION | UNDERSCORE | AT | HASH | INDENT | DEDENT | NEWLINE | EOF
  | NATIVE_BLOCK.

(** The member's position, tokens.py:18-157 (Enum auto()). *)
Definition tcode (t : ttype) : Z :=
  match t with
  | INT_LITERAL => 1 | FLOAT_LITERAL => 2 | STRING_LITERAL => 3 | BOOL_LITERAL => 4
  | IDENTIFIER => 5 | MODULE => 6 | USE => 7 | DEF => 8 | RETURN => 9 | EMIT => 10 | IF => 11
  | ELIF => 12 | ELSE => 13 | FOR => 14 | IN => 15 | WHILE => 16 | ASSERT => 17 | PASS => 18
  | AS => 19 | MATCH => 20 | EXPORT => 21 | NATIVE => 22 | COMMAND => 23 | LET => 24
  | REQUIRE => 25 | WITH => 26 | PYTHON => 27 | FN => 28 | EXPORTS => 29 | CLOSE => 30
  | CLOSE_C0 => 31 | CLOSE_C1 => 32 | TYPE_INT => 33 | TYPE_FLOAT => 34 | TYPE_STRING => 35
  | TYPE_BOOL => 36 | TYPE_POINT => 37 | TYPE_POINT2D => 38 | TYPE_POINT3D => 39
  | TYPE_VECTOR => 40 | TYPE_VECTOR2D => 41 | TYPE_VECTOR3D => 42 | TYPE_TRANSFORM => 43
  | TYPE_LINE_SEGMENT => 44 | TYPE_ARC => 45 | TYPE_CIRCLE => 46 | TYPE_ELLIPSE => 47
  | TYPE_PARABOLA => 48 | TYPE_HYPERBOLA => 49 | TYPE_CATMULLROM => 50 | TYPE_NURBS => 51
  | TYPE_BEZIER => 52 | TYPE_PATH2D => 53 | TYPE_PATH3D => 54 | TYPE_PROFILE2D => 55
  | TYPE_REGION2D => 56 | TYPE_LOOP3D => 57 | TYPE_SURFACE => 58 | TYPE_SHELL => 59
  | TYPE_SOLID => 60 | TYPE_LIST => 61 | TYPE_DICT => 62 | PLUS => 63 | MINUS => 64
  | STAR => 65 | SLASH => 66 | DOUBLE_SLASH => 67 | PERCENT => 68 | DOUBLE_STAR => 69
  | LT => 70 | GT => 71 | LE => 72 | GE => 73 | EQ => 74 | NE => 75 | AND => 76 | OR => 77
  | NOT => 78 | ASSIGN => 79 | PLUS_ASSIGN => 80 | MINUS_ASSIGN => 81 | LBRACE => 82
  | RBRACE => 83 | LPAREN => 84 | RPAREN => 85 | LBRACKET => 86 | RBRACKET => 87 | COLON => 88
  | SEMICOLON => 89 | COMMA => 90 | DOT => 91 | ARROW => 92 | DOUBLE_ARROW => 93 | RANGE => 94
  | QUESTION => 95 | UNDERSCORE => 96 | AT => 97 | HASH => 98 | INDENT => 99 | DEDENT => 100
  | NEWLINE => 101 | EOF => 102 | NATIVE_BLOCK => 103
  end.
(** Equality of TokenType members. *)
Definition teqb (a b : ttype) : bool := tcode a =? tcode b.

(** The code points of an ASCII literal of the Python source. *)
Fixpoint codes (s : string) : list Z :=
  match s with
  | EmptyString => []
  | String c r => Z.of_nat (nat_of_ascii c) :: codes r
  end.

(** tokens.py:207-296, KEYWORDS. *)
Definition KEYWORDS : list (string * ttype) :=
  [
   ("module"%string, MODULE); ("use"%string, USE); ("def"%string, DEF);
   ("return"%string, RETURN); ("emit"%string, EMIT); ("if"%string, IF); ("elif"%string, ELIF);
   ("else"%string, ELSE); ("for"%string, FOR); ("in"%string, IN); ("while"%string, WHILE);
   ("assert"%string, ASSERT); ("pass"%string, PASS); ("as"%string, AS);
   ("match"%string, MATCH); ("export"%string, EXPORT); ("native"%string, NATIVE);
   ("and"%string, AND); ("or"%string, OR); ("not"%string, NOT); ("command"%string, COMMAND);
   ("let"%string, LET); ("require"%string, REQUIRE); ("with"%string, WITH);
   ("python"%string, PYTHON); ("fn"%string, FN); ("exports"%string, EXPORTS);
   ("close"%string, CLOSE); ("closeC0"%string, CLOSE_C0); ("closeC1"%string, CLOSE_C1);
   ("True"%string, BOOL_LITERAL); ("False"%string, BOOL_LITERAL);
   ("true"%string, BOOL_LITERAL); ("false"%string, BOOL_LITERAL); ("int"%string, TYPE_INT);
   ("float"%string, TYPE_FLOAT); ("string"%string, TYPE_STRING); ("str"%string, TYPE_STRING);
   ("bool"%string, TYPE_BOOL); ("point"%string, TYPE_POINT); ("point2d"%string, TYPE_POINT2D);
   ("point3d"%string, TYPE_POINT3D); ("vector"%string, TYPE_VECTOR);
   ("vector2d"%string, TYPE_VECTOR2D); ("vector3d"%string, TYPE_VECTOR3D);
   ("transform"%string, TYPE_TRANSFORM); ("line_segment"%string, TYPE_LINE_SEGMENT);
   ("arc"%string, TYPE_ARC); ("circle"%string, TYPE_CIRCLE); ("ellipse"%string, TYPE_ELLIPSE);
   ("parabola"%string, TYPE_PARABOLA); ("hyperbola"%string, TYPE_HYPERBOLA);
   ("catmullrom"%string, TYPE_CATMULLROM); ("nurbs"%string, TYPE_NURBS);
   ("bezier"%string, TYPE_BEZIER); ("path2d"%string, TYPE_PATH2D);
   ("path3d"%string, TYPE_PATH3D); ("profile2d"%string, TYPE_PROFILE2D);
   ("region2d"%string, TYPE_REGION2D); ("loop3d"%string, TYPE_LOOP3D);
   ("surface"%string, TYPE_SURFACE); ("shell"%string, TYPE_SHELL);
   ("solid"%string, TYPE_SOLID); ("list"%string, TYPE_LIST); ("dict"%string, TYPE_DICT)].

(** What CPython's Unicode database says about characters >= 128; the ASCII part
    is fixed below.  [u_digit]: str.isdigit; [u_decimal]: the value used by int();
    [u_alpha]: str.isalpha; [u_numeric]: str.isdecimal or isdigit or isnumeric (so
    that isalnum = isalpha or this, as CPython defines it); [u_space]: str.isspace;
    [u_floatok s]: float(s) does not raise ValueError; [u_maxdigits]: the
    int-from-str digit limit (sys.get_int_max_str_digits, 0 = none). *)
Record unicode := Unicode {
  u_digit : Z -> bool; u_decimal : Z -> option Z; u_alpha : Z -> bool;
  u_numeric : Z -> bool; u_space : Z -> bool; u_floatok : list Z -> bool;
  u_maxdigits : Z }.

Definition ascii_digit (c : Z) : bool := (48 <=? c) && (c <=? 57).
Definition ascii_alpha (c : Z) : bool := (65 <=? c) && (c <=? 90) || (97 <=? c) && (c <=? 122).
(** str.isdigit / isalpha / isalnum of a one-character string. *)
Definition is_digit (U : unicode) (c : Z) : bool :=
  if c <? 128 then ascii_digit c else u_digit U c.
Definition is_alpha (U : unicode) (c : Z) : bool :=
  if c <? 128 then ascii_alpha c else u_alpha U c.
Definition is_alnum (U : unicode) (c : Z) : bool :=
  if c <? 128 then ascii_alpha c || ascii_digit c else u_alpha U c || u_numeric U c.

(** Python's int(s, base), CPython Objects/longobject.c and unicodeobject.c: Unicode
    decimals become ASCII digits and Unicode spaces become spaces; then optional
    spaces, a sign, for base 16 and 2 an optional prefix followed by an optional
    underscore, digits with single underscores between them, spaces.  None stands
    for ValueError.  The limit on the number of digits applies to base 10 only (of
    the bases used here). *)
Definition digit_val (U : unicode) (c : Z) : option Z :=
  if c <? 128 then
    if ascii_digit c then Some (c - 48)
    else if (65 <=? c) && (c <=? 90) then Some (c - 55)
    else if (97 <=? c) && (c <=? 122) then Some (c - 87)
    else None
  else u_decimal U c.
Definition is_space (U : unicode) (c : Z) : bool :=
  if c <? 128 then (c =? 32) || (9 <=? c) && (c <=? 13) || (28 <=? c) && (c <=? 31)
  else u_space U c.
Fixpoint drop_while (p : Z -> bool) (l : list Z) : list Z :=
  match l with [] => [] | c :: r => if p c then drop_while p r else l end.
(** Digits with single underscores between: [us] says an underscore may come here.
    Returns the value, the number of digits and the rest. *)
Fixpoint int_digits (U : unicode) (base acc : Z) (n : Z) (us : bool) (l : list Z)
  : option (Z * Z * list Z) :=
  match l with
  | [] => if us then Some (acc, n, []) else None
  | c :: r =>
      if c =? 95 then if us then int_digits U base acc n false r else None
      else match digit_val U c with
           | Some d => if d <? base then int_digits U base (acc * base + d) (n + 1) true r
                       else if us then Some (acc, n, l) else None
           | None => if us then Some (acc, n, l) else None
           end
  end.
Definition strip_prefix (base : Z) (l : list Z) : list Z :=
  match l with
  | z :: p :: r =>
      if (z =? 48) && ((base =? 16) && ((p =? 120) || (p =? 88)) || (base =? 2) && ((p =? 98) || (p =? 66)))
      then match r with u :: r' => if u =? 95 then r' else r | [] => r end
      else l
  | _ => l
  end.
Definition strip_sign (l : list Z) : bool * list Z :=
  match l with
  | c :: r => if c =? 43 then (false, r) else if c =? 45 then (true, r) else (false, l)
  | [] => (false, l)
  end.
Definition py_int (U : unicode) (base : Z) (s : list Z) : option Z :=
  let '(neg, l1) := strip_sign (drop_while (is_space U) s) in
  match int_digits U base 0 0 false (strip_prefix base l1) with
  | Some (v, n, rest) =>
      match drop_while (is_space U) rest with
      | [] => if (base =? 10) && (0 <? u_maxdigits U) && (u_maxdigits U <? n) then None
              else Some (if neg : bool then - v else v)
      | _ => None
      end
  | None => None
  end.

(** tokens.py:160-172 SourceLocation (line, column, offset). *)
Record loc := Loc { l_line : Z; l_col : Z; l_off : Z }.
(** Token.value (tokens.py:190): None, an int, a bool, a str, or float(lexeme). *)
Inductive value := VNone | VInt (z : Z) | VBool (b : bool) | VStr (s : list Z) | VFloat (lexeme : list Z).
(** tokens.py:187-193 Token; the span is (start, end). *)
Record token := Token { t_type : ttype; t_value : value; t_lexeme : list Z; t_start : loc; t_end : loc }.

(** The LexerError kinds raised (lexer.py:24-34). *)
Inductive lexerr :=
  | EUnexpectedChar (c : Z) | EUntermString | EUntermMultiString | EUntermComment
  | EBadEscape | EBadNumber | EBadHex | EBadBinary.

(** lexer.py:51-69, the Lexer's fields.  [s_rem] is source[pos:], so pos and line_start
    need not be stored apart from the offset; [s_stack] has the top first. *)
Record st := St {
  s_src : list Z; s_rem : list Z; s_off : Z; s_line : Z; s_col : Z;
  s_stack : list Z; s_als : bool; s_pend : list token; s_depth : Z }.
(** lexer.py:51-69 __init__. *)
Definition init (src : list Z) : st := St src src 0 1 1 [0] true [] 0.

(** lexer.py:84-86 _location. *)
Definition location (s : st) : loc := Loc (s_line s) (s_col s) (s_off s).
(** lexer.py:92-97 _peek: '\0' past the end. *)
Definition peek (k : nat) (s : st) : Z := nth k (s_rem s) 0.
(** lexer.py:99-112 _advance (the returned character is read with [peek] before). *)
Definition advance (s : st) : st :=
  match s_rem s with
  | [] => s
  | c :: r =>
      if c =? 10 then St (s_src s) r (s_off s + 1) (s_line s + 1) 1 (s_stack s) true (s_pend s) (s_depth s)
      else St (s_src s) r (s_off s + 1) (s_line s) (s_col s + 1) (s_stack s) (s_als s) (s_pend s) (s_depth s)
  end.
Fixpoint advance_n (n : nat) (s : st) : st :=
  match n with O => s | S n => advance_n n (advance s) end.
(** The length of the longest prefix of characters satisfying p. *)
Fixpoint count_while (p : Z -> bool) (l : list Z) : nat :=
  match l with [] => O | c :: r => if p c then S (count_while p r) else O end.
(** The loops `while p(self._peek()): self._advance()`; p is false of '\0'. *)
Definition advance_while (p : Z -> bool) (s : st) : st := advance_n (count_while p (s_rem s)) s.
(** lexer.py:121-123 _is_at_end. *)
Definition at_end (s : st) : bool := match s_rem s with [] => true | _ => false end.
Definition set_als (b : bool) (s : st) : st :=
  St (s_src s) (s_rem s) (s_off s) (s_line s) (s_col s) (s_stack s) b (s_pend s) (s_depth s).
Definition set_stack (k : list Z) (s : st) : st :=
  St (s_src s) (s_rem s) (s_off s) (s_line s) (s_col s) k (s_als s) (s_pend s) (s_depth s).
Definition set_pend (p : list token) (s : st) : st :=
  St (s_src s) (s_rem s) (s_off s) (s_line s) (s_col s) (s_stack s) (s_als s) p (s_depth s).
Definition set_depth (d : Z) (s : st) : st :=
  St (s_src s) (s_rem s) (s_off s) (s_line s) (s_col s) (s_stack s) (s_als s) (s_pend s) d.

(** source[a:b] for 0 <= a <= b. *)
Definition slice (src : list Z) (a b : Z) : list Z :=
  firstn (Z.to_nat (b - a)) (skipn (Z.to_nat a) src).
(** lexer.py:219-225 _make_token with an explicit lexeme. *)
Definition make_token_l (ty : ttype) (v : value) (start : loc) (lexeme : list Z) (s : st) : token :=
  Token ty v lexeme start (location s).
(** lexer.py:219-225 _make_token, lexeme defaulting to source[start.offset:pos]. *)
Definition make_token (ty : ttype) (v : value) (start : loc) (s : st) : token :=
  make_token_l ty v start (slice (s_src s) (l_off start) (s_off s)) s.

Inductive res (A : Type) := Ok (a : A) | Err (e : lexerr).
Arguments Ok {A} _. Arguments Err {A} _.

(** lexer.py:125-128 _skip_comment. *)
Definition skip_comment (s : st) : st := advance_while (fun c => negb (c =? 10)) s.

(** lexer.py:134-149, the loop of _skip_multiline_comment: the number of characters
    it consumes, or None if depth > 0 at the end of the source. *)
Fixpoint comment_len (depth : nat) (l : list Z) {struct l} : option nat :=
  match depth with
  | O => Some O
  | S d =>
      match l with
      | [] => None
      | a :: l1 =>
          match l1 with
          | b :: l2 =>
              if (a =? 47) && (b =? 42) then option_map (fun n => S (S n)) (comment_len (S depth) l2)
              else if (a =? 42) && (b =? 47) then option_map (fun n => S (S n)) (comment_len d l2)
              else option_map S (comment_len depth l1)
          | [] => option_map S (comment_len depth l1)
          end
      end
  end.
(** lexer.py:130-155 _skip_multiline_comment (called with '/' '*' next). *)
Definition skip_multiline_comment (s : st) : res st :=
  let s2 := advance_n 2 s in
  match comment_len 1 (s_rem s2) with
  | Some n => Ok (advance_n n s2)
  | None => Err EUntermComment
  end.

Definition is_blank (c : Z) : bool := (c =? 32) || (c =? 9).
(** lexer.py:214-217 _skip_whitespace_within_line. *)
Definition skip_blanks (s : st) : st := advance_while is_blank s.

(** lexer.py:199-203, the dedent loop: what remains of the stack and how many levels
    were popped.  (The bottom entry 0 is never above indent; an empty stack would
    raise IndexError in Python and cannot arise.) *)
Fixpoint pop_above (indent : Z) (k : list Z) : list Z * nat :=
  match k with
  | [] => ([], O)
  | t :: r => if indent <? t then let '(k', n) := pop_above indent r in (k', S n) else (k, O)
  end.

(** lexer.py:157-212 _handle_line_start. *)
Definition handle_line_start (s : st) : res (option token * st) :=
  if negb (s_als s) then Ok (None, s) else
  let start := location s in
  let indent := Z.of_nat (count_while is_blank (s_rem s)) in
  let s1 := skip_blanks s in
  let c := peek 0 s1 in
  if (c =? 10) || (c =? 0) then Ok (None, set_als true s1)
  else if c =? 35 then Ok (None, skip_comment s1)
  else if (c =? 47) && (peek 1 s1 =? 42) then
    match skip_multiline_comment s1 with Ok s2 => Ok (None, s2) | Err e => Err e end
  else
    let s2 := set_als false s1 in
    if 0 <? s_depth s2 then Ok (None, s2) else
    let current := hd 0 (s_stack s2) in
    if current <? indent then
      let s3 := set_stack (indent :: s_stack s2) s2 in
      Ok (Some (make_token_l INDENT VNone start [] s3), s3)
    else if indent <? current then
      let '(k, n) := pop_above indent (s_stack s2) in
      let k' := if hd 0 k =? indent then k else indent :: k in
      let s3 := set_stack k' s2 in
      let d := make_token_l DEDENT VNone start [] s3 in
      match n with
      | O => Ok (None, s3)
      | S n' => Ok (Some d, set_pend (s_pend s3 ++ repeat d n') s3)
      end
    else Ok (None, s2).

(** lexer.py:290-302 escape_chars of _scan_escape_sequence. *)
Definition simple_escape (c : Z) : option Z :=
  if c =? 110 then Some 10 else if c =? 116 then Some 9 else if c =? 114 then Some 13
  else if c =? 92 then Some 92 else if c =? 34 then Some 34 else if c =? 39 then Some 39
  else if c =? 48 then Some 0 else None.
(** lexer.py:283-331 _scan_escape_sequence on the characters after the backslash: the
    character denoted and the number of characters consumed.  At the end of the
    source _advance yields '\0', which int() rejects, hence EBadEscape.  chr()
    raises ValueError outside 0..0x10FFFF. *)
Definition chr_ok (v : Z) : bool := (0 <=? v) && (v <=? 1114111).
Definition escape (U : unicode) (l : list Z) : res (Z * nat) :=
  match l with
  | [] => Err EBadEscape
  | c :: r =>
      match simple_escape c with
      | Some v => Ok (v, 1%nat)
      | None =>
          if c =? 120 then
            match r with
            | a :: b :: _ =>
                match py_int U 16 [a; b] with
                | Some v => if chr_ok v then Ok (v, 3%nat) else Err EBadEscape
                | None => Err EBadEscape end
            | _ => Err EBadEscape end
          else if c =? 117 then
            match r with
            | a :: b :: d :: e :: _ =>
                match py_int U 16 [a; b; d; e] with
                | Some v => if chr_ok v then Ok (v, 5%nat) else Err EBadEscape
                | None => Err EBadEscape end
            | _ => Err EBadEscape end
          else Err EBadEscape
      end
  end.
(** lexer.py:239-259, the loop of _scan_string: the value and the number of
    characters up to and including the closing quote.  [fuel] bounds the iterations
    and is the length of the remaining text (every iteration consumes). *)
Fixpoint string_body (U : unicode) (fuel : nat) (q : Z) (l : list Z) : res (list Z * nat) :=
  match fuel with
  | O => Err EUntermString
  | S f =>
      match l with
      | [] => Err EUntermString
      | c :: r =>
          if c =? q then Ok ([], 1%nat)
          else if c =? 10 then Err EUntermString
          else if c =? 92 then
            match escape U r with
            | Err e => Err e
            | Ok (v, n) =>
                match string_body U f q (skipn n r) with
                | Ok (vs, m) => Ok (v :: vs, S (n + m))
                | Err e => Err e end
            end
          else match string_body U f q r with
               | Ok (vs, m) => Ok (c :: vs, S m)
               | Err e => Err e end
      end
  end.
(** lexer.py:263-281, the loop of _scan_multiline_string, likewise. *)
Fixpoint mstring_body (U : unicode) (fuel : nat) (q : Z) (l : list Z) : res (list Z * nat) :=
  match fuel with
  | O => Err EUntermMultiString
  | S f =>
      match l with
      | [] => Err EUntermMultiString
      | c :: r =>
          if (c =? q) && (nth 0 r 0 =? q) && (nth 1 r 0 =? q) then Ok ([], 3%nat)
          else if c =? 92 then
            match escape U r with
            | Err e => Err e
            | Ok (v, n) =>
                match mstring_body U f q (skipn n r) with
                | Ok (vs, m) => Ok (v :: vs, S (n + m))
                | Err e => Err e end
            end
          else match mstring_body U f q r with
               | Ok (vs, m) => Ok (c :: vs, S m)
               | Err e => Err e end
      end
  end.
(** lexer.py:227-281 _scan_string and _scan_multiline_string. *)
Definition scan_string (U : unicode) (s : st) : res (token * st) :=
  let start := location s in
  let q := peek 0 s in
  let s1 := advance s in
  if (peek 0 s1 =? q) && (peek 1 s1 =? q) then
    let s2 := advance_n 2 s1 in
    match mstring_body U (S (length (s_rem s2))) q (s_rem s2) with
    | Ok (v, n) => let s3 := advance_n n s2 in Ok (make_token STRING_LITERAL (VStr v) start s3, s3)
    | Err e => Err e
    end
  else
    match string_body U (S (length (s_rem s1))) q (s_rem s1) with
    | Ok (v, n) => let s2 := advance_n n s1 in Ok (make_token STRING_LITERAL (VStr v) start s2, s2)
    | Err e => Err e
    end.

Definition is_hexdigit (c : Z) : bool :=
  ascii_digit c || (97 <=? c) && (c <=? 102) || (65 <=? c) && (c <=? 70).
Definition is_bindigit (c : Z) : bool := (c =? 48) || (c =? 49).
(** str.replace('_', ''). *)
Definition strip_us (l : list Z) : list Z := filter (fun c => negb (c =? 95)) l.
(** lexer.py:386-434 _scan_hex_number and _scan_binary_number; [s] is positioned on
    the 'x' or 'b'. *)
Definition scan_based (U : unicode) (base : Z) (isd : Z -> bool) (e : lexerr) (start : loc) (s : st)
  : res (token * st) :=
  let s1 := advance s in
  if negb (isd (peek 0 s1)) then Err e else
  let s2 := advance_while (fun c => isd c || (c =? 95)) s1 in
  let lexeme := slice (s_src s2) (l_off start) (s_off s2) in
  match py_int U base (strip_us lexeme) with
  | Some v => Ok (make_token_l INT_LITERAL (VInt v) start lexeme s2, s2)
  | None => Err e
  end.
(** lexer.py:333-384 _scan_number.  (The code has advanced past a leading 0 before
    the digit loop; the 0 is itself a digit, so the loop is unaffected.) *)
Definition scan_number (U : unicode) (s : st) : res (token * st) :=
  let start := location s in
  if (peek 0 s =? 48) && ((peek 1 s =? 120) || (peek 1 s =? 88))
  then scan_based U 16 is_hexdigit EBadHex start (advance s)
  else if (peek 0 s =? 48) && ((peek 1 s =? 98) || (peek 1 s =? 66))
  then scan_based U 2 is_bindigit EBadBinary start (advance s)
  else
    let s1 := advance_while (is_digit U) s in
    let '(f1, s2) :=
      if (peek 0 s1 =? 46) && is_digit U (peek 1 s1)
      then (true, advance_while (is_digit U) (advance s1)) else (false, s1) in
    let exp := (peek 0 s2 =? 101) || (peek 0 s2 =? 69) in
    let s3 := if exp then
                let s' := advance s2 in
                if (peek 0 s' =? 43) || (peek 0 s' =? 45) then advance s' else s'
              else s2 in
    if exp && negb (is_digit U (peek 0 s3)) then Err EBadNumber else
    let s4 := if exp then advance_while (is_digit U) s3 else s3 in
    let lexeme := slice (s_src s4) (l_off start) (s_off s4) in
    if f1 || exp then
      if u_floatok U lexeme
      then Ok (make_token_l FLOAT_LITERAL (VFloat lexeme) start lexeme s4, s4)
      else Err EBadNumber
    else
      match py_int U 10 lexeme with
      | Some v => Ok (make_token_l INT_LITERAL (VInt v) start lexeme s4, s4)
      | None => Err EBadNumber
      end.

Fixpoint leqb (a b : list Z) : bool :=
  match a, b with
  | [], [] => true | x :: a, y :: b => (x =? y) && leqb a b | _, _ => false end.
(** KEYWORDS.get(lexeme). *)
Fixpoint keyword (l : list Z) (t : list (string * ttype)) : option ttype :=
  match t with
  | [] => None
  | (k, ty) :: r => if leqb l (codes k) then Some ty else keyword l r
  end.
(** lexer.py:436-457 _scan_identifier_or_keyword. *)
Definition scan_identifier (U : unicode) (s : st) : res (token * st) :=
  let start := location s in
  let s1 := advance_while (fun c => is_alnum U c || (c =? 95)) s in
  let lexeme := slice (s_src s1) (l_off start) (s_off s1) in
  match keyword lexeme KEYWORDS with
  | Some ty =>
      let isbool := leqb lexeme (codes "True") || leqb lexeme (codes "False")
                    || leqb lexeme (codes "true") || leqb lexeme (codes "false") in
      let v := if isbool then VBool (leqb lexeme (codes "True") || leqb lexeme (codes "true"))
               else VStr lexeme in
      Ok (make_token_l ty v start lexeme s1, s1)
  | None => Ok (make_token_l IDENTIFIER (VStr lexeme) start lexeme s1, s1)
  end.

(** lexer.py:474-480, the comment loop of _scan_token.  [fuel] is the length of the
    remaining text; every iteration consumes at least the '#' or the '/' '*'. *)
Fixpoint skip_comments (fuel : nat) (s : st) : res st :=
  match fuel with
  | O => Ok s
  | S f =>
      if peek 0 s =? 35 then skip_comments f (skip_blanks (skip_comment s))
      else if (peek 0 s =? 47) && (peek 1 s =? 42) then
        match skip_multiline_comment s with
        | Ok s' => skip_comments f (skip_blanks s')
        | Err e => Err e end
      else Ok s
  end.

(** lexer.py:525-546, the two-character operators, in the order they are tried. *)
Definition two_char : list (Z * Z * ttype) :=
  [(45, 62, ARROW); (61, 62, DOUBLE_ARROW); (61, 61, EQ); (33, 61, NE); (60, 61, LE); (62, 61, GE);
   (46, 46, RANGE); (42, 42, DOUBLE_STAR); (47, 47, DOUBLE_SLASH); (43, 61, PLUS_ASSIGN);
   (45, 61, MINUS_ASSIGN)].
(** lexer.py:549-566, brackets and the change of bracket_depth. *)
Definition brackets : list (Z * ttype * Z) :=
  [(40, LPAREN, 1); (41, RPAREN, -1); (91, LBRACKET, 1); (93, RBRACKET, -1);
   (123, LBRACE, 1); (125, RBRACE, -1)].
(** lexer.py:569-585, single_char_tokens. *)
Definition single_char : list (Z * ttype) :=
  [(43, PLUS); (45, MINUS); (42, STAR); (47, SLASH); (37, PERCENT); (60, LT); (62, GT); (61, ASSIGN);
   (58, COLON); (59, SEMICOLON); (44, COMMA); (46, DOT); (63, QUESTION); (64, AT); (35, HASH)].

Fixpoint find2 (c d : Z) (t : list (Z * Z * ttype)) : option ttype :=
  match t with
  | [] => None
  | (a, b, ty) :: r => if (c =? a) && (d =? b) then Some ty else find2 c d r end.
Fixpoint find_bracket (c : Z) (t : list (Z * ttype * Z)) : option (ttype * Z) :=
  match t with
  | [] => None | (a, ty, d) :: r => if c =? a then Some (ty, d) else find_bracket c r end.
Fixpoint find1 (c : Z) (t : list (Z * ttype)) : option ttype :=
  match t with [] => None | (a, ty) :: r => if c =? a then Some ty else find1 c r end.

(** lexer.py:521-594, operators, brackets and single characters; [s] is positioned
    on the character. *)
Definition scan_operator (s : st) : res (token * st) :=
  let start := location s in
  let c := peek 0 s in
  let s1 := advance s in
  match find2 c (peek 0 s1) two_char with
  | Some ty => let s2 := advance s1 in Ok (make_token ty (VStr [c; peek 0 s1]) start s2, s2)
  | None =>
      match find_bracket c brackets with
      | Some (ty, d) =>
          let s2 := set_depth (Z.max 0 (s_depth s1 + d)) s1 in
          Ok (make_token ty (VStr [c]) start s2, s2)
      | None =>
          match find1 c single_char with
          | Some ty => Ok (make_token ty (VStr [c]) start s1, s1)
          | None => Err (EUnexpectedChar c)
          end
      end
  end.

(** Outcome of one pass through _scan_token: a token, or [Again] where the code calls
    itself (lexer.py:494, newline inside brackets). *)
Inductive step := Emit (t : token) (s : st) | Again (s : st).

(** lexer.py:459-594 _scan_token. *)
Definition scan_token (U : unicode) (s : st) : res step :=
  match s_pend s with
  | t :: r => Ok (Emit t (set_pend r s))
  | [] =>
    match handle_line_start s with
    | Err e => Err e
    | Ok (Some t, s1) => Ok (Emit t s1)
    | Ok (None, s1) =>
      let s2 := skip_blanks s1 in
      match skip_comments (S (length (s_rem s2))) s2 with
      | Err e => Err e
      | Ok s3 =>
          let start := location s3 in
          if peek 0 s3 =? 10 then
            let s4 := advance s3 in
            if s_depth s4 =? 0 then Ok (Emit (make_token_l NEWLINE VNone start [92; 110] s4) s4)
            else Ok (Again s4)
          else if at_end s3 then
            let n := pred (length (s_stack s3)) in
            let d := make_token_l DEDENT VNone start [] s3 in
            let s4 := set_stack (skipn n (s_stack s3)) s3 in
            match repeat d n with
            | t :: r => Ok (Emit t (set_pend r s4))
            | [] => Ok (Emit (make_token_l EOF VNone (location s4) [] s4) s4)
            end
          else
            let c := peek 0 s3 in
            match (if (c =? 34) || (c =? 39) then scan_string U s3
                   else if is_digit U c then scan_number U s3
                   else if is_alpha U c || (c =? 95) then scan_identifier U s3
                   else scan_operator s3) with
            | Ok (t, s4) => Ok (Emit t s4)
            | Err e => Err e
            end
      end
    end
  end.

(** lexer.py:596-604 tokenize: scan until EOF.  [None] is "out of fuel", excluded by
    theorem C01 for the fuel used by [tokenize]. *)
Fixpoint scan_all (U : unicode) (fuel : nat) (s : st) : option (res (list token)) :=
  match fuel with
  | O => None
  | S f =>
      match scan_token U s with
      | Err e => Some (Err e)
      | Ok (Again s') => scan_all U f s'
      | Ok (Emit t s') =>
          if teqb (t_type t) EOF then Some (Ok [t])
          else match scan_all U f s' with
               | Some (Ok ts) => Some (Ok (t :: ts))
               | r => r
               end
      end
  end.
Definition tokenize (U : unicode) (src : list Z) : option (res (list token)) :=
  scan_all U (3 * length src + 4)%nat (init src).

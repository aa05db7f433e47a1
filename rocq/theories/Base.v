(** Basic vocabulary shared by all model files.

    A Rust [char] is modelled by its Unicode scalar value ([N]); a [&str] /
    [String] by the list of its characters.  Byte offsets (Rust strings are
    sliced by UTF-8 byte offset) are recovered through [utf8_len]. *)
From Coq Require Export List Bool NArith ZArith Arith Lia String Ascii.
Export ListNotations.
Local Open Scope N_scope.

Notation char := N (only parsing).
Notation text := (list N) (only parsing).

(** Three-valued outcome of every model function that can panic or loop:
    a Rust panic ([Panic site]) and an exhausted loop budget ([Fuel]) are
    different from every normal result. *)
Inductive res (A : Type) : Type :=
| Ok (a : A)
| Panic (site : string)
| Fuel.
Arguments Ok {A} a.
Arguments Panic {A} site.
Arguments Fuel {A}.

Definition bind {A B} (x : res A) (f : A -> res B) : res B :=
  match x with
  | Ok a => f a
  | Panic s => Panic s
  | Fuel => Fuel
  end.
Notation "'let*' x ':=' e 'in' k" := (bind e (fun x => k))
  (at level 61, x pattern, e at next level, right associativity).

(** String literals (ASCII only) as [text]. *)
Fixpoint tx (s : string) : text :=
  match s with
  | EmptyString => []
  | String a r => N_of_ascii a :: tx r
  end.
Arguments tx s%string.

(** Equality of strings (Rust [==] on [&str]). *)
Fixpoint teqb (a b : text) : bool :=
  match a, b with
  | [], [] => true
  | x :: a', y :: b' => N.eqb x y && teqb a' b'
  | _, _ => false
  end.

(** [char::len_utf8]. *)
Definition utf8_len (c : char) : nat :=
  if c <? 0x80 then 1%nat
  else if c <? 0x800 then 2%nat
  else if c <? 0x10000 then 3%nat
  else 4%nat.

(** UTF-8 encoding of a character: the bytes of [str::as_bytes]. *)
Definition utf8_char (c : char) : list N :=
  if c <? 0x80 then [c]
  else if c <? 0x800 then [0xC0 + c / 0x40; 0x80 + c mod 0x40]
  else if c <? 0x10000 then
    [0xE0 + c / 0x1000; 0x80 + (c / 0x40) mod 0x40; 0x80 + c mod 0x40]
  else
    [0xF0 + c / 0x40000; 0x80 + (c / 0x1000) mod 0x40;
     0x80 + (c / 0x40) mod 0x40; 0x80 + c mod 0x40].

Definition utf8 (s : text) : list N := flat_map utf8_char s.

(** [str::len]: length in bytes. *)
Fixpoint blen (s : text) : nat :=
  match s with
  | [] => 0
  | c :: r => utf8_len c + blen r
  end.

(** [str] slicing by byte offset: [split_bytes n s] is [(&s[..n], &s[n..])], or
    [None] when [n] is past the end or not on a character boundary (in Rust:
    indexing panics, [get]/[slice] return [None]). *)
Fixpoint split_bytes (n : nat) (s : text) {struct s} : option (text * text) :=
  match n with
  | O => Some ([], s)
  | _ =>
    match s with
    | [] => None
    | c :: r =>
      if Nat.leb (utf8_len c) n then
        match split_bytes (n - utf8_len c) r with
        | Some (a, b) => Some (c :: a, b)
        | None => None
        end
      else None
    end
  end.

(** [char::is_whitespace] (Unicode White_Space). *)
Definition is_whitespace (c : char) : bool :=
  ((9 <=? c) && (c <=? 13)) || (c =? 32) || (c =? 0x85) || (c =? 0xA0)
  || (c =? 0x1680) || ((0x2000 <=? c) && (c <=? 0x200A))
  || (c =? 0x2028) || (c =? 0x2029) || (c =? 0x202F) || (c =? 0x205F)
  || (c =? 0x3000).

(** [u8::is_ascii_alphabetic] / [char::is_ascii_alphabetic]. *)
Definition is_ascii_alpha (c : N) : bool :=
  ((65 <=? c) && (c <=? 90)) || ((97 <=? c) && (c <=? 122)).

(** [char::is_ascii_digit]. *)
Definition is_ascii_digit (c : char) : bool := (48 <=? c) && (c <=? 57).

(** [char::is_ascii_alphanumeric]. *)
Definition is_ascii_alnum (c : char) : bool := is_ascii_alpha c || is_ascii_digit c.

(** [str::trim_start]. *)
Fixpoint trim_start (s : text) : text :=
  match s with
  | c :: r => if is_whitespace c then trim_start r else s
  | [] => []
  end.
(** [str::trim_end] and [str::trim]. *)
Definition trim_end (s : text) : text := rev (trim_start (rev s)).
Definition trim (s : text) : text := trim_end (trim_start s).

(** Maximal prefix of characters satisfying [p], and the remainder. *)
Fixpoint span (p : char -> bool) (s : text) : text * text :=
  match s with
  | c :: r => if p c then let '(a, b) := span p r in (c :: a, b) else ([], s)
  | [] => ([], [])
  end.

(** [str::starts_with], [str::strip_prefix]. *)
Fixpoint strip_prefix (p s : text) : option text :=
  match p, s with
  | [], _ => Some s
  | x :: p', y :: s' => if N.eqb x y then strip_prefix p' s' else None
  | _ :: _, [] => None
  end.
Definition starts_with (p s : text) : bool :=
  match strip_prefix p s with Some _ => true | None => false end.
(** [str::ends_with], [str::strip_suffix]. *)
Definition strip_suffix (p s : text) : option text :=
  option_map (@rev char) (strip_prefix (rev p) (rev s)).

(** Finite maps keyed by strings: [HashMap] is used only through
    get / insert / remove, so an association list with first-match lookup
    represents it. *)
Fixpoint assoc {V} (k : text) (l : list (text * V)) : option V :=
  match l with
  | [] => None
  | (k', v) :: r => if teqb k k' then Some v else assoc k r
  end.

(** Decimal rendering of a number ([format!("{}", n)]). *)
Fixpoint dec_fuel (fuel : nat) (n : N) (acc : text) : text :=
  match fuel with
  | O => acc
  | S f => let acc := (48 + n mod 10) :: acc in
           if n <? 10 then acc else dec_fuel f (n / 10) acc
  end.
Definition dec (n : N) : text := dec_fuel (S (N.to_nat (N.log2 n))) n [].

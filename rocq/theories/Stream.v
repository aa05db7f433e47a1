(** The lexer front end: crates/mitex-lexer/src/{stream,lib}.rs. *)
From Verif Require Export Lex.

(** stream.rs:45-63 [LexCache::bump] on the plain stream (lib.rs:38-42
    [TokenStream::bump] for [()]): take at most [page] tokens.  [page] is
    PEEK_CACHE_SIZE. *)
Fixpoint take_page (page : nat) (s : lstream) : res (list tok * lstream) :=
  match page with
  | O => Ok ([], s)
  | S p =>
    match s with
    | SNil => Ok ([], SNil)
    | SPanic e => Panic e
    | SCons t r => let* (ts, r') := take_page p r in Ok (t :: ts, r')
    end
  end.

(** lib.rs:65-70 [Lexer]: the outer look-ahead cache ([lx_buf] has the top of
    the reversed [Vec] first) and the state [lx_b] of the token producer
    (inner stream and bumper). *)
Record lexer (B : Type) := mk_lexer {
  lx_peeked : option tok;
  lx_buf : list tok;
  lx_b : B
}.
Arguments mk_lexer {B}. Arguments lx_peeked {B}. Arguments lx_buf {B}. Arguments lx_b {B}.

Section Lexer.
  Context {B : Type}.
  (** [TokenStream::bump]: produce the next page of tokens. *)
  Variable bump : B -> res (list tok * B).

  (** lib.rs:105-113 [Lexer::next]; after a bump the page is reversed and its
      first token popped into [peeked] (stream.rs:59-62, macro_engine.rs:441-445). *)
  Definition lx_next (l : lexer B) : res (lexer B) :=
    match lx_buf l with
    | t :: r => Ok (mk_lexer (Some t) r (lx_b l))
    | [] =>
      let* (page, b) := bump (lx_b l) in
      match page with
      | t :: r => Ok (mk_lexer (Some t) r b)
      | [] => Ok (mk_lexer None [] b)
      end
    end.

  (** lib.rs:88-101 [Lexer::new_with_bumper] *)
  Definition lx_new (b : B) : res (lexer B) := lx_next (mk_lexer None [] b).

  (** lib.rs:116-128 [peek], [peek_text], [peek_char] *)
  Definition lx_peek (l : lexer B) : option token := option_map fst (lx_peeked l).
  Definition lx_peek_text (l : lexer B) : option text := option_map snd (lx_peeked l).
  Definition lx_peek_char (l : lexer B) : option char :=
    match lx_peek_text l with Some (c :: _) => Some c | _ => None end.

  (** lib.rs:131-140 [consume_utf8_bytes] *)
  Definition lx_consume (cnt : nat) (l : lexer B) : res (lexer B) :=
    match lx_peeked l with
    | None => Ok l
    | Some (k, s) =>
      if Nat.leb (blen s) cnt then lx_next l
      else match split_bytes cnt s with
           | Some (_, s') => Ok (mk_lexer (Some (k, s')) (lx_buf l) (lx_b l))
           | None => Panic "lib.rs:138 str slice"
           end
    end.

  (** lib.rs:143-147 [eat] *)
  Definition lx_eat (l : lexer B) : res (option tok * lexer B) :=
    match lx_peeked l with
    | None => Ok (None, l)
    | Some t =>
      let* l' := lx_next (mk_lexer None (lx_buf l) (lx_b l)) in Ok (Some t, l')
    end.

  (** Repeatedly [eat] until [None], at most [n] times (how a caller reads all
      tokens). *)
  Fixpoint lx_drain (n : nat) (l : lexer B) : res (list tok) :=
    match n with
    | O => Fuel
    | S n' =>
      let* (t, l') := lx_eat l in
      match t with
      | None => Ok []
      | Some t => let* ts := lx_drain n' l' in Ok (t :: ts)
      end
    end.
End Lexer.

(** [Lexer::<()>::new], lib.rs:77-82, with the given page size *)
Definition plain_bump (page : nat) (s : lstream) : res (list tok * lstream) := take_page page s.
Definition plain_new (page : nat) (sp : spec) (src : text) : res (lexer lstream) :=
  lx_new (plain_bump page) (lex_stream sp src).

(* ------------------------------------------------------------------ *)
(** * The inner stream ([StreamContext], stream.rs:68-210)

    [peek_inner.buf] is a stack of tokens in front of the logos lexer
    ([next_token], stream.rs:96-103, pops it first); stack and lexer are
    represented together by one [lstream]: pushing = consing.
    [StreamFacts.v] proves this merge exact against the two-component state. *)
Record ictx := mk_ictx { ic_peeked : option tok; ic_rest : lstream }.

(** stream.rs:96-103 [next_token] *)
Definition next_token (c : ictx) : res ictx :=
  match ic_rest c with
  | SNil => Ok (mk_ictx None SNil)
  | SPanic e => Panic e
  | SCons t r => Ok (mk_ictx (Some t) r)
  end.

(** stream.rs:112-118 [peek_full], [peek] are [ic_peeked] *)
Definition ic_peek (c : ictx) : option token := option_map fst (ic_peeked c).

(** stream.rs:121-128: the tokens [peek_stream] runs through *)
Definition flat (c : ictx) : lstream :=
  match ic_peeked c with Some t => SCons t (ic_rest c) | None => ic_rest c end.

(** stream.rs:130-136: [find] the first non-trivia token of a stream; the token
    found (or [None]) is then the peeked one *)
Fixpoint find_non_trivia (s : lstream) : res ictx :=
  match s with
  | SNil => Ok (mk_ictx None SNil)
  | SPanic e => Panic e
  | SCons t r => if is_trivia (fst t) then find_non_trivia r else Ok (mk_ictx (Some t) r)
  end.
(** stream.rs:130-132 [next_not_trivia]; the returned token is [ic_peek] *)
Definition next_not_trivia (c : ictx) : res ictx := find_non_trivia (ic_rest c).
(** stream.rs:134-136 [peek_not_trivia] *)
Definition peek_not_trivia (c : ictx) : res ictx := find_non_trivia (flat c).

(** stream.rs:138-142 [eat_if] *)
Definition eat_if (k : token) (c : ictx) : res ictx :=
  match ic_peek c with
  | Some k' => if token_eqb k' k then next_token c else Ok c
  | None => Ok c
  end.

(** stream.rs:148-150 [extend_inner] with [LexCache::extend], 27-42: put [ts]
    in front of the peeked token.  [ts] is in reading order (the callers pass
    the reversed sequence).  If nothing is peeked the tokens stay in the
    buffer. *)
Definition push_front (ts : list tok) (s : lstream) : lstream := fold_right SCons s ts.
Definition extend_inner (ts : list tok) (c : ictx) : ictx :=
  match ic_peeked c with
  | Some t =>
    match push_front ts (SCons t (ic_rest c)) with
    | SCons t' r => mk_ictx (Some t') r
    | _ => c (* unreachable *)
    end
  | None => mk_ictx None (push_front ts (ic_rest c))
  end.

(** Rust's [u8::from_str]: optional '+', then one or more ASCII digits, at most 255 *)
Fixpoint parse_digits (s : text) (acc : N) : option N :=
  match s with
  | [] => Some acc
  | c :: r =>
    if is_ascii_digit c then
      let v := (acc * 10 + (c - 48))%N in
      if (255 <? v)%N then None else parse_digits r v
    else None
  end.
Definition parse_u8 (s : text) : option N :=
  match s with
  | [] => None
  | c :: r =>
    if (c =? 43)%N then match r with [] => None | _ => parse_digits r 0 end
    else parse_digits s 0
  end.

(** stream.rs:152-182: the common tail of [peek_u8_opt], [peek_word_opt],
    [peek_cmd_name_opt]: advance to the next non-trivia token (giving up at the
    end of input), then eat a closing brace *)
Definition close_arg {A} (bk : brace) (r : option A) (c : ictx) : res (ictx * option A) :=
  let* c := next_not_trivia c in
  match ic_peek c with
  | None => Ok (c, None)
  | Some _ => let* c := eat_if (TRight bk) c in Ok (c, r)
  end.
(** stream.rs:152-162 [peek_u8_opt] *)
Definition peek_u8_opt (bk : brace) (c : ictx) : res (ictx * option N) :=
  close_arg bk (match ic_peeked c with Some (Word, s) => parse_u8 s | _ => None end) c.
(** stream.rs:164-171 [peek_word_opt] *)
Definition peek_word_opt (bk : brace) (c : ictx) : res (ictx * option tok) :=
  close_arg bk (match ic_peeked c with Some (Word, s) => Some (Word, s) | _ => None end) c.
(** stream.rs:173-182 [peek_cmd_name_opt] *)
Definition peek_cmd_name_opt (bk : brace) (c : ictx) : res (ictx * option tok) :=
  close_arg bk
    (match ic_peeked c with Some (CommandName n, s) => Some (CommandName n, s) | _ => None end) c.

(** stream.rs:184-209 [read_until_balanced]: the [take_while] over
    [peek_stream]; stops on (and leaves peeked) the closing token at curly
    level 0 *)
Fixpoint take_balanced (bk : brace) (level : Z) (s : lstream) : res (list tok * ictx) :=
  match s with
  | SNil => Ok ([], mk_ictx None SNil)
  | SPanic e => Panic e
  | SCons t r =>
    if (level =? 0)%Z && token_eqb (fst t) (TRight bk) then Ok ([], mk_ictx (Some t) r)
    else
      let level :=
        match fst t with
        | TLeft Curly => (level + 1)%Z
        | TRight Curly => (level - 1)%Z
        | _ => level
        end in
      let* (ts, c) := take_balanced bk level r in Ok (t :: ts, c)
  end.
Definition read_until_balanced (bk : brace) (c : ictx) : res (list tok * ictx) :=
  let* (ts, c) := take_balanced bk 0 (flat c) in
  let* c := eat_if (TRight bk) c in
  Ok (ts, c).

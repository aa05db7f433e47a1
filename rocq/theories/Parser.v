(** The parser: crates/mitex-parser/src/parser.rs, over an abstract lexer.

    All recursion of the Rust parser goes through [call]: one constructor per
    function or loop that can recurse.  Each Rust function is a definition that
    receives [rec], the recursive caller; [run] ties the knot with fuel. *)
From Verif Require Export Stream Builder ArgMatch.
Local Open Scope N_scope.

(** parser.rs:11-28 [ParseScope] *)
Inductive scope :=
| Root | DollarFormula | CmdFormula | Environment | LR | CurlyItem | BracketItem | ParenItem.

(** parser.rs:269-305 [stop_by_scope] *)
Definition stop_by_scope (sc : scope) (k : token) : bool :=
  match sc, k with
  | Root, _ => false
  | DollarFormula, (TRight Curly | CommandName EndEnvironment | CommandName CRight | Dollar) => true
  | CmdFormula, (TRight Curly | CommandName EndEnvironment | CommandName CRight
                 | CommandName EndMath) => true
  | Environment, (TRight Curly | CommandName EndEnvironment) => true
  | CurlyItem, TRight Curly => true
  | BracketItem, (TRight Curly | TRight Bracket | CommandName EndEnvironment
                  | CommandName CRight) => true
  | ParenItem, (TRight Curly | TRight Paren | CommandName EndEnvironment
                | CommandName CRight) => true
  | LR, (TRight Curly | CommandName EndEnvironment | CommandName CRight) => true
  | _, _ => false
  end.

(** The recursive entry points: [content], the loops of [item_list],
    [match_arguments_], [trivia], [text], [eat_body_of_ifs]. *)
Inductive call :=
| KContent (not_single : bool)
| KList (current : nat)
| KMatch (greedy : bool) (m : matcher) (current : nat)
| KTrivia
| KText
| KIfs (nested : nat).

Section Parser.
  (** The lexer as the parser sees it: the peeked token, advancing to the next
      one ([Lexer::next], reached through [eat] and [consume_utf8_bytes]), and
      replacing the text of the peeked token (lib.rs:131-140). *)
  Context {L : Type}.
  Variable pk : L -> option tok.
  Variable nx : L -> res L.
  Variable set_text : text -> L -> L.
  (** glob_match_prefix *)
  Variable gm : text -> text -> bool.
  (** parser.rs:115-116 the command specification *)
  Variable sp : spec.

  (** parser.rs:107-125 [Parser], with [ListState] (parser.rs:36-46) inlined *)
  Record pst := mk_pst {
    p_lex : L;
    p_b : builder;
    p_trivia : list tok;
    p_start : option nat;
    p_last : option nat;
    p_scope : scope
  }.

  Definition with_lex l st := mk_pst l (p_b st) (p_trivia st) (p_start st) (p_last st) (p_scope st).
  Definition with_b b st := mk_pst (p_lex st) b (p_trivia st) (p_start st) (p_last st) (p_scope st).
  Definition with_trivia t st := mk_pst (p_lex st) (p_b st) t (p_start st) (p_last st) (p_scope st).
  Definition with_start s st := mk_pst (p_lex st) (p_b st) (p_trivia st) s (p_last st) (p_scope st).
  Definition with_last l st := mk_pst (p_lex st) (p_b st) (p_trivia st) (p_start st) l (p_scope st).
  Definition with_list s l sc st := mk_pst (p_lex st) (p_b st) (p_trivia st) s l sc.

  Definition pres := res (bool * pst).

  (** parser.rs:186-188 [peek] *)
  Definition p_peek (st : pst) : option token := option_map fst (pk (p_lex st)).

  (** [Lexer::eat] (lexer lib.rs:143-147) with the [unwrap] of the callers *)
  Definition lex_eat (st : pst) : res (tok * pst) :=
    match pk (p_lex st) with
    | None => Panic "parser.rs: unwrap on None"
    | Some t => let* l := nx (p_lex st) in Ok (t, with_lex l st)
    end.

  (** [Lexer::consume_utf8_bytes] (lexer lib.rs:131-140) *)
  Definition lex_consume (cnt : nat) (st : pst) : res pst :=
    match pk (p_lex st) with
    | None => Ok st
    | Some (_, s) =>
      if Nat.leb (blen s) cnt then let* l := nx (p_lex st) in Ok (with_lex l st)
      else match split_bytes cnt s with
           | Some (_, s') => Ok (with_lex (set_text s' (p_lex st)) st)
           | None => Panic "lexer lib.rs:138 str slice"
           end
    end.

  (** builder operations lifted to the parser state *)
  Definition token_ (k : kind) (s : text) (st : pst) : pst := with_b (b_token k s (p_b st)) st.
  Definition start_node (k : kind) (st : pst) : pst := with_b (b_start k (p_b st)) st.
  Definition start_node_at (cp : nat) (k : kind) (st : pst) : res pst :=
    let* b := b_start_at cp k (p_b st) in Ok (with_b b st).
  Definition finish_node (st : pst) : res pst :=
    let* b := b_finish_node (p_b st) in Ok (with_b b st).
  Definition checkpoint (st : pst) : nat := b_checkpoint (p_b st).

  (** parser.rs:192-196 [eat] *)
  Definition eat (st : pst) : res pst :=
    let* (t, st) := lex_eat st in
    Ok (token_ (kind_of_token (fst t)) (snd t) st).
  (** parser.rs:200-202 [drop] *)
  Definition drop_ (st : pst) : res pst :=
    match pk (p_lex st) with
    | None => Ok st
    | Some _ => let* (_, st) := lex_eat st in Ok st
    end.
  (** parser.rs:207-210 [eat_as] *)
  Definition eat_as (k : kind) (st : pst) : res pst :=
    let* (t, st) := lex_eat st in Ok (token_ k (snd t) st).
  (** parser.rs:214-218 [eat_if] *)
  Definition eat_if_ (k : token) (st : pst) : res pst :=
    match p_peek st with
    | Some k' => if token_eqb k' k then eat st else Ok st
    | None => Ok st
    end.
  (** parser.rs:222-224 [hold_trivia] *)
  Definition hold_trivia (st : pst) : res pst :=
    let* (t, st) := lex_eat st in Ok (with_trivia (p_trivia st ++ [t]) st).
  (** parser.rs:227-229 [ignore_holding_trivia] *)
  Definition ignore_holding_trivia (st : pst) : pst := with_trivia [] st.
  (** parser.rs:232-237 [extract_holding_trivia] *)
  Definition extract_holding_trivia (st : pst) : pst :=
    with_trivia []
      (fold_left (fun st t => token_ (kind_of_token (fst t)) (snd t) st) (p_trivia st) st).
  (** parser.rs:240-247 [single_char] *)
  Definition single_char (st : pst) : res pst :=
    match pk (p_lex st) with
    | Some (_, c :: _) => lex_consume (utf8_len c) (token_ TokenWord [c] st)
    | _ => Ok st
    end.

  Section Rec.
  Variable rec : call -> pst -> pres.
  Definition rec_ (c : call) (st : pst) : res pst := let* (_, st) := rec c st in Ok st.

  (** parser.rs:251-255 [trivia]: the loop *)
  Definition trivia_loop (st : pst) : pres :=
    match p_peek st with
    | Some k => if is_trivia k then let* st := eat st in rec KTrivia st else Ok (true, st)
    | None => Ok (true, st)
    end.

  (** parser.rs:312-331 [item_list] and its loop *)
  Definition list_loop (current : nat) (st : pst) : pres :=
    match p_peek st with
    | None => Ok (true, st)
    | Some k =>
      if stop_by_scope (p_scope st) k then Ok (true, st)
      else
        let* (attachable, st) := rec (KContent true) st in
        let st := if attachable then with_last (Some current) st else st in
        rec (KList (checkpoint st)) st
    end.
  Definition item_list (sc : scope) (st : pst) : res pst :=
    let current := checkpoint st in
    let* st' := rec_ (KList current) (with_list (Some current) None sc st) in
    Ok (with_list (p_start st) (p_last st) (p_scope st) st').

  (** parser.rs:336-363 [item_group] (called with these five scopes only) *)
  Definition item_group (sc : scope) (st : pst) : res pst :=
    let* (end_token, group_kind) :=
      match sc with
      | CurlyItem => Ok (TRight Curly, ItemCurly)
      | BracketItem => Ok (TRight Bracket, ItemBracket)
      | ParenItem => Ok (TRight Paren, ItemParen)
      | DollarFormula => Ok (Dollar, ItemFormula)
      | CmdFormula => Ok (CommandName EndMath, ItemFormula)
      | _ => Panic "parser.rs:337 assert"
      end in
    let st := start_node group_kind st in
    let* st := eat st in
    let* st := item_list sc st in
    let* st := eat_if_ end_token st in
    finish_node st.

  (** parser.rs:457-469 [text] and its loop *)
  Definition is_text_component (k : token) : bool :=
    match k with LineBreak | Whitespace | LineComment | Word | Comma => true | _ => false end.
  Definition text_loop (st : pst) : pres :=
    match p_peek st with
    | Some k => if is_text_component k then let* st := eat st in rec KText st else Ok (true, st)
    | None => Ok (true, st)
    end.
  Definition p_text (st : pst) : res pst :=
    let st := start_node ItemText st in
    let* st := eat st in
    let* st := rec_ KText st in
    finish_node st.

  (** parser.rs:472-481 [start_command_at] *)
  Definition start_command_at (pos : option nat) (st : pst) : res pst :=
    match pos with
    | Some cp =>
      let* st := start_node_at cp ItemCmd st in
      let* st := start_node_at cp ClauseArgument st in
      finish_node st
    | None => Ok (start_node ItemCmd st)
    end.

  (** parser.rs:652-668 [arg] *)
  Definition p_arg (greedy : bool) (f : pst -> pres) (st : pst) : pres :=
    if greedy then f st
    else
      let st := start_node ClauseArgument (ignore_holding_trivia st) in
      let* (r, st) := f st in
      let* st := finish_node st in
      Ok (r, st).

  (** parser.rs:711-725: the [for c in ...chars()] loop of the [Word] branch.
      Returns whether the matcher refused a character, the matcher, the bytes
      used and the state. *)
  Fixpoint word_args (cs : text) (m : matcher) (cnt : nat) (st : pst)
    : res (bool * matcher * nat * pst) :=
    match cs with
    | [] => Ok (false, m, cnt, st)
    | c :: r =>
      let '(ok, m) := try_match gm m ARG_TERM in
      if negb ok then Ok (true, m, cnt, st)
      else
        let* (_, st) := p_arg false (fun st => Ok (true, token_ TokenWord [c] st)) st in
        word_args r m (cnt + utf8_len c) st
    end.

  (** parser.rs:670-780: the loop of [match_arguments_].  [current] is only
      meaningful when greedy. *)
  Definition match_loop (greedy : bool) (m : matcher) (current : nat) (st : pst) : pres :=
    let rest k :=
      if stop_by_scope (p_scope st) k then Ok (true, st)
      else
        let '(ok, m) := try_match gm m ARG_TERM in
        if negb ok then Ok (true, st)
        else
          let current := if greedy then checkpoint st else current in
          let* (attachable, st) := p_arg greedy (rec (KContent true)) st in
          let st := if greedy && attachable then with_last (Some current) st else st in
          rec (KMatch greedy m current) st in
    match pk (p_lex st) with
    | None => Ok (true, st)
    | Some (k, s) =>
      match k with
      | LineBreak | Whitespace | LineComment =>
        let* st := if greedy then eat st else hold_trivia st in
        rec (KMatch greedy m current) st
      | NewLine =>
        if greedy && match p_scope st with Environment => true | _ => false end
        then Ok (true, st) else rest k
      | Ampersand => Ok (true, st)
      | Caret | Underscore => if negb greedy then Ok (true, st) else rest k
      | Word =>
        if greedy then rest k
        else
          let* (stopped, m, cnt, st) := word_args s m 0 st in
          let* st := if Nat.ltb 0 cnt then lex_consume cnt st else Ok st in
          if stopped then Ok (true, st) else rec (KMatch greedy m current) st
      | TLeft bk =>
        let '(encoded, sc) := match bk with
                              | Curly => (ARG_TERM, CurlyItem)
                              | Bracket => (ARG_BRACKET, BracketItem)
                              | Paren => (ARG_PAREN, ParenItem)
                              end in
        let '(r, m) := match_as_term gm m encoded in
        match r with
        | None => Ok (true, st)
        | Some modified_as_term =>
          let current := if greedy then checkpoint st else current in
          let* (_, st) :=
            p_arg greedy
              (fun st => let* st := if modified_as_term then eat st else item_group sc st in
                         Ok (true, st)) st in
          let st := if greedy then with_last (Some current) st else st in
          rec (KMatch greedy m current) st
        end
      | _ => rest k
      end
    end.

  (** parser.rs:783-794 [match_arguments] (with the assertion of line 643).
      Note that [last] is cleared before it is saved. *)
  Definition match_arguments (greedy : bool) (m : matcher) (st : pst) : res pst :=
    let start := p_start st in
    let st := with_last None st in
    let st := with_start (if greedy then Some (checkpoint st) else None) st in
    if negb (Bool.eqb greedy (is_greedy m)) then Panic "parser.rs:643 GREEDY mismatched"
    else
      let* st := rec_ (KMatch greedy m (checkpoint st)) st in
      Ok (with_last None (with_start start st)).

  (** parser.rs:485-536 [command] *)
  Definition right_command (p : arg_pattern) (st : pst) : pres :=
    let m := start_match p in
    let* st := eat st in
    let* st :=
      if is_greedy m then
        let st := start_node ClauseArgument st in
        let* st := match_arguments true m st in
        finish_node st
      else match_arguments false m st in
    let* st := finish_node st in
    Ok (negb (is_greedy m), extract_holding_trivia st).
  Definition command (st : pst) : pres :=
    match pk (p_lex st) with
    | None => Panic "parser.rs:488 unwrap"
    | Some (_, s) =>
      match strip_prefix (tx "\") s with
      | None => Panic "parser.rs:488 unwrap"
      | Some name =>
        match option_map cs_args (get_cmd sp name) with
        | None | Some (SRight PNone) | Some (SRight (PFixed 0)) =>
          let st := start_node ItemCmd st in
          let* st := eat st in
          let* st := finish_node st in
          Ok (true, st)
        | Some SLeft1 =>
          let pos := match p_last st with Some p => Some p | None => p_start st end in
          let* st := start_command_at pos st in
          let* st := eat st in
          let* st := finish_node st in
          Ok (false, st)
        | Some (SRight p) => right_command p (start_node ItemCmd st)
        | Some SInfixGreedy =>
          let pos := p_start st in
          let* st := start_command_at pos (with_start None st) in
          right_command PGreedy st
        end
      end
    end.

  (** parser.rs:540-575 [environment] *)
  Definition environment (st : pst) : res pst :=
    let st := start_node ItemEnv st in
    let st := start_node ItemBegin st in
    match pk (p_lex st) with
    | None => Panic "parser.rs:547 unwrap"
    | Some (_, env_name) =>
      let* st := eat st in
      let* st :=
        match option_map en_args (get_env sp env_name) with
        | None | Some PNone | Some (PFixed 0) => Ok st
        | Some p => match_arguments false (start_match p) st
        end in
      let* st := finish_node st in
      let st := extract_holding_trivia st in
      let* st := item_list Environment st in
      let* st :=
        match p_peek st with
        | Some (CommandName EndEnvironment) =>
          let st := start_node ItemEnd st in
          let* st := eat st in
          finish_node st
        | _ => Ok st
        end in
      finish_node st
    end.

  (** parser.rs:823-841 [clause_lr] *)
  Definition clause_lr (st : pst) : res pst :=
    let st := start_node ClauseLR st in
    let* st := eat st in
    let* st := rec_ KTrivia st in
    let* st :=
      match p_peek st with
      | Some (CommandName Generic) => eat_as TokenCommandSym st
      | Some (CommandName _) | Some Dollar | None => Ok st
      | Some Word => single_char st
      | Some _ => eat st
      end in
    finish_node st.

  (** parser.rs:580-591 [item_lr] *)
  Definition item_lr (st : pst) : res pst :=
    let st := start_node ItemLR st in
    let* st := clause_lr st in
    let* st := item_list LR st in
    let* st :=
      match p_peek st with
      | Some (CommandName CRight) => clause_lr st
      | _ => Ok st
      end in
    finish_node st.

  (** parser.rs:609-632 [eat_body_of_ifs]: the loop *)
  Definition ifs_loop (nested : nat) (st : pst) : pres :=
    match p_peek st with
    | None => Ok (true, st)
    | Some (CommandName (CIf _)) => let* st := eat st in rec (KIfs (S nested)) st
    | Some (CommandName CEndIf) =>
      match nested with
      | O => let* st := drop_ st in Ok (true, st)
      | S n => let* st := eat st in rec (KIfs n) st
      end
    | Some _ => let* st := eat st in rec (KIfs nested) st
    end.
  (** parser.rs:595-607 [block_comment], [typst_code] *)
  Definition if_block (k : kind) (st : pst) : res pst :=
    let st := start_node k st in
    let* st := drop_ st in
    let* st := rec_ (KIfs 0) st in
    finish_node st.

  (** parser.rs:798-819 [attach_component] *)
  Definition attach_component (has_script : bool) (st : pst) : res pst :=
    let finish_ st :=
      let* st := eat st in
      let* st :=
        if has_script then
          let* st := rec_ KTrivia st in rec_ (KContent false) st
        else Ok st in
      finish_node st in
    match p_last st with
    | Some cp =>
      let* st := start_node_at cp ItemAttachComponent st in
      let* st := start_node_at cp ClauseArgument st in
      let* st := finish_node st in
      finish_ st
    | None =>
      if negb has_script then eat st
      else finish_ (start_node ItemAttachComponent st)
    end.

  Definition error_node (st : pst) : res pst :=
    let st := start_node TokenError st in
    let* st := eat st in
    finish_node st.

  (** parser.rs:370-453 [content] *)
  Definition content (not_single : bool) (st : pst) : pres :=
    let yes (r : res pst) : pres := let* st := r in Ok (true, st) in
    let no (r : res pst) : pres := let* st := r in Ok (false, st) in
    match p_peek st with
    | None => Ok (true, st)
    | Some c =>
      match c with
      | Ampersand | NewLine | LineBreak | Whitespace | LineComment | Hash | Asterisk | AtSign
      | TError => no (eat st)
      | Apostrophe => no (attach_component false st)
      | Underscore | Caret => no (attach_component true st)
      | TLeft Curly => yes (item_group CurlyItem st)
      | TRight Curly | MacroArg _ => yes (error_node st)
      | TLeft _ | TRight _ | Tilde | Slash | Ditto | Semicolon => yes (eat st)
      | Word => yes (if not_single then p_text st else single_char st)
      | Comma => yes (p_text st)
      | Dollar => no (item_group DollarFormula st)
      | CommandName name =>
        match name with
        | Generic => command st
        | BeginEnvironment => yes (environment st)
        | BeginMath => no (item_group CmdFormula st)
        | CIf IfFalse => yes (if_block ItemBlockComment st)
        | CIf IfTypst => yes (if_block ItemTypstCode st)
        | CIf _ | CElse | CEndIf => command st
        | CLeft => yes (item_lr st)
        | CRight => command st
        | ErrorBeginEnvironment | ErrorEndEnvironment => yes (eat st)
        | EndEnvironment | EndMath => yes (error_node st)
        end
      end
    end.

  Definition dispatch (c : call) (st : pst) : pres :=
    match c with
    | KContent b => content b st
    | KList cur => list_loop cur st
    | KMatch g m cur => match_loop g m cur st
    | KTrivia => trivia_loop st
    | KText => text_loop st
    | KIfs n => ifs_loop n st
    end.
  End Rec.

  Fixpoint run (fuel : nat) (c : call) (st : pst) : pres :=
    match fuel with
    | O => Fuel
    | S fuel => dispatch (run fuel) c st
    end.

  Definition pst_new (l : L) : pst := mk_pst l builder_new [] None None Root.

  (** parser.rs:259-264 [parse] *)
  Definition parse (fuel : nat) (l : L) : res tree :=
    let st := start_node ScopeRoot (pst_new l) in
    let* st := item_list (run fuel) Root st in
    let* st := finish_node st in
    b_finish (p_b st).
End Parser.

Arguments mk_pst {L}. Arguments p_lex {L}. Arguments p_b {L}. Arguments p_trivia {L}.
Arguments p_start {L}. Arguments p_last {L}. Arguments p_scope {L}.

(** The parser on a plain token list *)
Definition list_pk (l : list tok) : option tok := hd_error l.
Definition list_nx (l : list tok) : res (list tok) := Ok (tl l).
Definition list_set (s : text) (l : list tok) : list tok :=
  match l with (k, _) :: r => (k, s) :: r | [] => [] end.

Definition run_list := run list_pk list_nx list_set.
Definition parse_list (gm : text -> text -> bool) (sp : spec) (fuel : nat) (ts : list tok) : res tree :=
  parse list_pk list_nx list_set gm sp fuel ts.

(** An amount of fuel that always suffices (ParserFacts.parse_terminates) *)
Definition toks_size (ts : list tok) : nat :=
  fold_right (fun t n => (1 + List.length (snd t) + n)%nat) O ts.
Definition parse_fuel (ts : list tok) : nat := (2 * toks_size ts + 4)%nat.

(** The parser on the batching lexer ([Parser::new], [Parser::new_macro],
    parser.rs:130-155) *)
Definition lx_set {B} (s : text) (l : lexer B) : lexer B :=
  match lx_peeked l with
  | Some (k, _) => mk_lexer (Some (k, s)) (lx_buf l) (lx_b l)
  | None => l
  end.
Definition parse_lexer {B} (bump : B -> res (list tok * B)) (gm : text -> text -> bool)
  (sp : spec) (fuel : nat) (l : lexer B) : res tree :=
  parse lx_peeked (lx_next bump) lx_set gm sp fuel l.

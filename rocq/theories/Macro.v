(** The macro engine: crates/mitex-lexer/src/macro_engine.rs. *)
From Verif Require Export Stream SnapMap.
Local Open Scope N_scope.

(** macro_engine.rs:106-111 [CmdMacro] *)
Record cmd_macro := mk_cmdm {
  cm_name : text; cm_num : N; cm_opt : option (list tok); cm_def : list tok }.
(** macro_engine.rs:114-120 [EnvMacro] *)
Record env_macro := mk_envm {
  em_name : text; em_num : N; em_opt : option (list tok);
  em_begin : list tok; em_end : list tok }.

(** macro_engine.rs:123-152 [DeclareCmdOrEnv] *)
Inductive declare_cmd :=
| NewCommand (renew star : bool)
| ProvideCommand (star : bool)
| DeclareRobustCommand (star : bool)
| NewEnvironment (renew star : bool).
(** macro_engine.rs:155-195 [DeclareMacro] *)
Inductive declare :=
| CmdOrEnv (c : declare_cmd)
| DeclareTextCommand | DeclareTextCommandDefault
| ProvideTextCommand | ProvideTextCommandDefault
| AtEndOfClass | AtEndOfPackage | AtBeginDocument | AtEndDocument.

(** macro_engine.rs:300-307 [Macro] *)
Inductive macro :=
| MDeclare (d : declare)
| MCmd (c : cmd_macro)
| MEnv (e : env_macro).

(** macro_engine.rs:197-289 [define_declarative_macros] *)
Definition declarative_macros : list (text * declare) :=
  [ (tx "newcommand", CmdOrEnv (NewCommand false false));
    (tx "newcommand*", CmdOrEnv (NewCommand false true));
    (tx "renewcommand", CmdOrEnv (NewCommand true false));
    (tx "renewcommand*", CmdOrEnv (NewCommand true true));
    (tx "providecommand", CmdOrEnv (ProvideCommand false));
    (tx "providecommand*", CmdOrEnv (ProvideCommand true));
    (tx "DeclareRobustCommand", CmdOrEnv (DeclareRobustCommand false));
    (tx "DeclareRobustCommand*", CmdOrEnv (DeclareRobustCommand true));
    (tx "DeclareTextCommand", DeclareTextCommand);
    (tx "DeclareTextCommandDefault", DeclareTextCommandDefault);
    (tx "ProvideTextCommand", ProvideTextCommand);
    (tx "ProvideTextCommandDefault", ProvideTextCommandDefault);
    (tx "newenvironment", CmdOrEnv (NewEnvironment false false));
    (tx "newenvironment*", CmdOrEnv (NewEnvironment false true));
    (tx "renewenvironment", CmdOrEnv (NewEnvironment true false));
    (tx "renewenvironment*", CmdOrEnv (NewEnvironment true true));
    (tx "AtEndOfClass", AtEndOfClass);
    (tx "AtEndOfPackage", AtEndOfPackage);
    (tx "AtBeginDocument", AtBeginDocument);
    (tx "AtEndDocument", AtEndDocument) ].

(** ena's [push] outside snapshots is taken to append; see SnapMap.v (the
    engine itself never looks at the log). *)
Definition log_always := true.

(** macro_engine.rs:292-297 [DEFAULT_MACROS] *)
Definition default_macros : snapmap macro :=
  fold_left (fun m e => sm_insert log_always (fst e) (MDeclare (snd e)) m)
            declarative_macros sm_empty.

(** macro_engine.rs:327-331 [UpdateAction] *)
Inductive update_action := UNew | URenew | UProvide.
(** macro_engine.rs:334-340 [IfState] *)
Inductive if_state := LitFalse | TypstTrue | TypstFalse | StFalse | StTrue.

(** macro_engine.rs:346-362 [MacroEngine].  Only the fields that are ever read
    are kept: env_stack, reading_macro and scanned_tokens are never used.
    [reading_if]: head = last pushed. *)
Record engine := mk_engine {
  en_macros : snapmap macro;
  en_ifs : list (option if_state)
}.

(** macro_engine.rs:378-387 [new] *)
Definition engine_new : engine := mk_engine default_macros [].

(** macro_engine.rs:371-373 [get_macro] *)
Definition get_macro (name : text) (e : engine) : option macro := sm_get name (en_macros e).
(** macro_engine.rs:948-950 [add_macro] *)
Definition add_macro (name : text) (m : macro) (e : engine) : engine :=
  mk_engine (sm_insert log_always name m (en_macros e)) (en_ifs e).
(** macro_engine.rs:933-938 [create_scope] *)
Definition create_scope (e : engine) : snapshot * engine :=
  let '(s, m) := sm_snapshot (en_macros e) in (s, mk_engine m (en_ifs e)).
(** macro_engine.rs:941-945 [restore] *)
Definition restore (s : snapshot) (e : engine) : res engine :=
  let* m := sm_rollback s (en_macros e) in Ok (mk_engine m (en_ifs e)).

(** macro_engine.rs:449-469 [skip_false_tokens], as a loop over the tokens
    ahead of (and including) the peeked one.  [nested] is only decremented when
    positive. *)
Fixpoint skip_false (nested : nat) (s : lstream) : res ictx :=
  match s with
  | SNil => Ok (mk_ictx None SNil)
  | SPanic e => Panic e
  | SCons t r =>
    match fst t with
    | CommandName (CIf _) => skip_false (S nested) r
    | CommandName CElse | CommandName CEndIf =>
      match nested with
      | O => Ok (mk_ictx (Some t) r)
      | S n => skip_false n r
      end
    | _ => skip_false nested r
    end
  end.
(** [while let Some(kind) = ctx.peek()]: nothing happens when nothing is peeked *)
Definition skip_false_tokens (c : ictx) : res ictx :=
  match ic_peeked c with
  | None => Ok c
  | Some _ => skip_false 0 (flat c)
  end.

(** Result of one engine action: new engine, new inner stream, tokens pushed to
    the outer stream (in order). *)
Definition step_res := res (engine * ictx * list tok).

(** macro_engine.rs:473-493 [trapped_by_if] *)
Definition trapped_by_if (e : engine) (c : ictx) (t : tok) (i : ifname) : step_res :=
  let* c := next_token c in
  match i with
  | IfFalse => Ok (mk_engine (en_macros e) (Some LitFalse :: en_ifs e), c, [t])
  | IfTrue => Ok (mk_engine (en_macros e) (Some StTrue :: en_ifs e), c, [])
  | IfTypst => Ok (mk_engine (en_macros e) (Some TypstTrue :: en_ifs e), c, [t])
  | _ => Ok (mk_engine (en_macros e) (None :: en_ifs e), c, [t])
  end.

(** macro_engine.rs:496-529 [trapped_by_else] *)
Definition trapped_by_else (e : engine) (c : ictx) (t : tok) : step_res :=
  let* c := next_token c in
  match en_ifs e with
  | Some st :: ifs =>
    let repl s := mk_engine (en_macros e) (Some s :: ifs) in
    match st with
    | TypstTrue => let* c := skip_false_tokens c in Ok (repl TypstFalse, c, [])
    | StTrue => let* c := skip_false_tokens c in Ok (repl StFalse, c, [])
    | StFalse => Ok (repl StTrue, c, [])
    | TypstFalse => Ok (repl TypstTrue, c, [])
    | LitFalse => Ok (repl StTrue, c, [(CommandName CEndIf, tx "\fi")])
    end
  | _ => Ok (e, c, [t])
  end.

(** macro_engine.rs:532-541 [trapped_by_endif] *)
Definition trapped_by_endif (e : engine) (c : ictx) (t : tok) : step_res :=
  let* c := next_token c in
  match en_ifs e with
  | [] => Ok (e, c, [t])
  | st :: ifs =>
    let e := mk_engine (en_macros e) ifs in
    match st with
    | Some StTrue | Some StFalse => Ok (e, c, [])
    | _ => Ok (e, c, [t])
    end
  end.

(** macro_engine.rs:952-986 [process_macro_def].  The [for] loop over indices
    looks one token ahead; when it rewrites the next token it stays a [Word],
    on which the next iteration does nothing, so both are emitted at once.  The
    boolean is [empty_texts]. *)
Fixpoint process_hashes (l : list tok) : res (list tok * bool) :=
  match l with
  | [] => Ok ([], false)
  | (Hash, h) :: r =>
    let keep := let* (r', b) := process_hashes r in Ok ((Hash, h) :: r', b) in
    match r with
    | [] => Panic "macro_engine.rs:957 unwrap"
    | (Word, c :: w) :: r2 =>
      if is_ascii_digit c && negb (c =? 48) then
        let* (r', b) := process_hashes r2 in
        Ok ((MacroArg (c - 48), h) :: (Word, w) :: r',
            b || match w with [] => true | _ => false end)
      else keep
    | _ => keep
    end
  | t :: r => let* (r', b) := process_hashes r in Ok (t :: r', b)
  end.
Definition nonempty_word (t : tok) : bool :=
  match t with (Word, []) => false | _ => true end.
Definition process_macro_def (def : list tok) : res (list tok) :=
  let* (d, empty_texts) := process_hashes def in
  Ok (if empty_texts then filter nonempty_word d else d).

(** macro_engine.rs:876-930 [expand_tokens].  [inrec] is true inside the
    [mitexrecurse] loop (lines 898-919); the brace counter [bc] lives outside
    it (line 884). *)
Fixpoint expand_go (args : list (list tok)) (inrec : bool) (bc : Z) (tokens : list tok)
  : res (list tok) :=
  match tokens with
  | [] => Ok []
  | e :: r =>
    let emit inrec bc := let* rest := expand_go args inrec bc r in Ok (e :: rest) in
    if inrec then
      match fst e with
      | TLeft Curly =>
        if (0 <? bc)%Z then emit true (bc + 1)%Z else expand_go args true (bc + 1)%Z r
      | TRight Curly =>
        let bc := (bc - 1)%Z in
        if (bc =? 0)%Z then expand_go args false bc r else emit true bc
      | k =>
        if negb (bc =? 0)%Z then emit true bc
        else if is_trivia k then expand_go args true bc r
        else emit false bc
      end
    else
      match fst e with
      | MacroArg num =>
        if num =? 0 then Panic "macro_engine.rs:890 subtract with overflow" else
        let arg := match nth_error args (N.to_nat (num - 1)) with Some a => a | None => [] end in
        let* rest := expand_go args false bc r in Ok (arg ++ rest)
      | CommandName Generic =>
        match strip_prefix (tx "\") (snd e) with
        | None => Panic "macro_engine.rs:895 unwrap"
        | Some name =>
          if teqb name (tx "mitexrecurse") then expand_go args true bc r
          else emit false bc
        end
      | _ => emit false bc
      end
  end.
Definition expand_tokens (args : list (list tok)) (tokens : list tok) : res (list tok) :=
  expand_go args false 0 tokens.

(** macro_engine.rs:789-797: the [for c in t.chars()] loop of the [Word] branch
    of [read_macro_args]: at most [lft] one-character arguments are split off.
    Returns them and the remaining text. *)
Fixpoint split_word (lft : nat) (t : text) : list (list tok) * text :=
  match lft, t with
  | S l, c :: t' => let '(a, r) := split_word l t' in ([(Word, [c])] :: a, r)
  | _, _ => ([], t)
  end.

(** macro_engine.rs:781-821: the argument loop; [lft] is
    [num_args - num_of_read] (which is at least 1 on every entry).  Returns the
    arguments read and the final value of [lft]. *)
Fixpoint read_args_loop (fuel : nat) (lft : nat) (c : ictx)
  : res (ictx * list (list tok) * nat) :=
  match fuel with
  | O => Fuel
  | S fuel =>
    let* c := peek_not_trivia c in
    (* lines 818-821: count this argument and leave or loop *)
    let go_on (lft : nat) (c : ictx) (args : list (list tok)) :=
      match lft - 1 with
      | O => Ok (c, args, O)
      | S _ as lft' =>
        let* (c, args', lft') := read_args_loop fuel lft' c in Ok (c, args ++ args', lft')
      end%nat in
    match ic_peeked c with
    | None => Ok (c, [], lft)
    | Some (TLeft Curly, _) =>
      let* c := next_token c in
      let* (arg, c) := read_until_balanced Curly c in
      go_on lft c [arg]
    | Some (Word, t) =>
      let '(chars, t') := split_word lft t in
      let* c := match t' with
                | [] => next_token c
                | _ => Ok (mk_ictx (Some (Word, t')) (ic_rest c))
                end in
      let lft := (lft - List.length chars)%nat in
      match lft with
      | O => Ok (c, chars, O)
      | _ => go_on lft c chars
      end
    | Some t =>
      let* c := next_token c in
      go_on lft c [[t]]
    end
  end.

(** macro_engine.rs:770-839 [read_macro_args].  [None]: an error token was
    pushed (second component). *)
Definition read_macro_args (c : ictx) (num : N) (opt : option (list tok))
  : res (ictx * list tok * option (list (list tok))) :=
  if num =? 0 then Ok (c, [], Some []) else
  let n := N.to_nat num in
  let* (c, args, lft) := read_args_loop n n c in
  match lft with
  | O => Ok (c, [], Some args)
  | S lft' =>
    match lft', opt with
    | O, Some o => Ok (c, [], Some (args ++ [o]))
    | _, _ => Ok (c, [(TError, tx "invalid number of arguments")], None)
    end
  end.

(** macro_engine.rs:841-873 [read_env_body] over the tokens from the peeked one
    on; [bc] is only decremented when positive.  Result: inner stream, tokens
    pushed to the outer stream, body. *)
Fixpoint env_body_go (name : text) (bc : nat) (s : lstream)
  : res (ictx * list tok * option (list tok)) :=
  match s with
  | SNil => Ok (mk_ictx None SNil, [], None)
  | SPanic e => Panic e
  | SCons e r =>
    let push bc :=
      let* (c, out, b) := env_body_go name bc r in
      Ok (c, out, option_map (cons e) b) in
    match fst e with
    | CommandName EndEnvironment =>
      match bc with
      | O =>
        if negb (teqb (snd e) name) then
          Ok (mk_ictx (Some e) r, [(TError, tx "unmatched environment")], None)
        else let* c := next_token (mk_ictx (Some e) r) in Ok (c, [], Some [])
      | S bc => push bc
      end
    | CommandName BeginEnvironment => push (S bc)
    | _ => push bc
    end
  end.
Definition read_env_body (name : text) (c : ictx) : res (ictx * list tok * option (list tok)) :=
  match ic_peeked c with
  | None => Ok (c, [], None)
  | Some _ => env_body_go name 0 (flat c)
  end.

(** macro_engine.rs:687-716: the match loop of [identify_macro_update]; one
    definition per state.  Results: inner stream, and the body tokens (with
    the argument count and optional default found so far), or [None] for the
    [?] returns. *)
Definition match_body (c : ictx) : res (ictx * option (list tok)) :=
  match ic_peeked c with
  | None => Ok (c, None)
  | Some (TLeft Curly, _) =>
    let* c := next_token c in
    let* (def, c) := read_until_balanced Curly c in Ok (c, Some def)
  | Some t => let* c := next_token c in Ok (c, Some [t])
  end.
(** state [OptArgDefault] (then [DefN]) *)
Definition match_opt (c : ictx) : res (ictx * option (option (list tok) * list tok)) :=
  match ic_peeked c with
  | Some (TLeft Bracket, _) =>
    let* c := next_token c in
    let* (opt, c) := read_until_balanced Bracket c in
    let* (c, def) := match_body c in
    Ok (c, option_map (fun d => (Some opt, d)) def)
  | _ =>
    let* (c, def) := match_body c in
    Ok (c, option_map (fun d => (None, d)) def)
  end.
(** state [NArgs] *)
Definition match_nargs (c : ictx) : res (ictx * option (N * option (list tok) * list tok)) :=
  match ic_peeked c with
  | Some (TLeft Bracket, _) =>
    let* c := next_not_trivia c in
    let* (c, n) := peek_u8_opt Bracket c in
    match n with
    | Some n =>
      if n <=? 9 then
        let* (c, r) := match_opt c in
        Ok (c, option_map (fun '(o, d) => (n, o, d)) r)
      else Ok (c, None)
    | None => Ok (c, None)
    end
  | _ =>
    let* (c, def) := match_body c in
    Ok (c, option_map (fun d => (0, None, d)) def)
  end.

Definition is_new_env (d : declare_cmd) : bool :=
  match d with NewEnvironment _ _ => true | _ => false end.

(** macro_engine.rs:666-677: the brace and the name *)
Definition read_macro_name (d : declare_cmd) (c : ictx) : res (ictx * option text) :=
  let* c := next_not_trivia c in
  match ic_peek c with
  | Some (TLeft Curly) =>
    let* c := next_not_trivia c in
    if is_new_env d then
      let* (c, t) := peek_word_opt Curly c in Ok (c, option_map snd t)
    else
      let* (c, t) := peek_cmd_name_opt Curly c in
      match t with
      | None => Ok (c, None)
      | Some (_, s) =>
        match strip_prefix (tx "\") s with
        | Some name => Ok (c, Some name)
        | None => Panic "macro_engine.rs:676 unwrap"
        end
      end
  | _ => Ok (c, None)
  end.

(** macro_engine.rs:720-743: the action *)
Definition action_of (d : declare_cmd) : update_action :=
  match d with
  | NewCommand true _ => URenew
  | NewCommand false _ => UNew
  | DeclareRobustCommand _ => UNew
  | ProvideCommand _ => UProvide
  | NewEnvironment true _ => URenew
  | NewEnvironment false _ => UNew
  end.

(** macro_engine.rs:660-766 [identify_macro_update] *)
Definition identify_macro_update (d : declare_cmd) (c : ictx)
  : res (ictx * option (text * update_action * macro)) :=
  let* (c, name) := read_macro_name d c in
  match name with
  | None => Ok (c, None)
  | Some name =>
    let* (c, r) := match_nargs c in
    match r with
    | None => Ok (c, None)
    | Some (num, opt, def) =>
      if is_new_env d then
        match ic_peek c with
        | None => Ok (c, None)
        | Some k =>
          let* (c, end_def) :=
            if token_eqb k (TLeft Curly) then
              let* c := next_token c in
              let* (ed, c) := read_until_balanced Curly c in Ok (c, Some ed)
            else Ok (c, None) in
          let* def := process_macro_def def in
          match end_def with
          | None => Ok (c, None)
          | Some ed =>
            let* ed := process_macro_def ed in
            Ok (c, Some (name, action_of d, MEnv (mk_envm name num opt def ed)))
          end
        end
      else
        let* def := process_macro_def def in
        Ok (c, Some (name, action_of d, MCmd (mk_cmdm name num opt def)))
    end
  end.

(** macro_engine.rs:575-599: apply the update *)
Definition apply_update (e : engine) (name : text) (a : update_action) (m : macro)
  : engine * list tok :=
  let known := match get_macro name e with Some _ => true | None => false end in
  match a with
  | UNew => (add_macro name m e, if known then [(TError, name)] else [])
  | URenew => (add_macro name m e, if known then [] else [(TError, name)])
  | UProvide => (if known then e else add_macro name m e, [])
  end.

(** macro_engine.rs:623-628, 650-653: extend the inner stream and reload *)
Definition resume_with (ts : list tok) (c : ictx) : res ictx :=
  let c := extend_inner ts c in
  match ic_peeked c with None => next_token c | Some _ => Ok c end.

(** macro_engine.rs:544-658 [trapped_by_macro] *)
Definition trapped_by_macro (e : engine) (c : ictx) (t : tok) (name : text) (is_env : bool)
  : step_res :=
  let forward := let* c := next_token c in Ok (e, c, [t]) in
  match get_macro name e with
  | None => forward
  | Some m =>
    if negb (Bool.eqb is_env (match m with MEnv _ => true | _ => false end)) then forward else
    match m with
    | MDeclare (CmdOrEnv d) =>
      let* (c, u) := identify_macro_update d c in
      match u with
      | None => Ok (e, c, [])
      | Some (name, a, m) =>
        let '(e, out) := apply_update e name a m in Ok (e, c, out)
      end
    | MDeclare _ => forward
    | MCmd cmd =>
      let* c := next_token c in
      let* (c, out, args) := read_macro_args c (cm_num cmd) (cm_opt cmd) in
      match args with
      | None => Ok (e, c, out)
      | Some args =>
        let* ts := expand_tokens args (cm_def cmd) in
        let* c := resume_with ts c in
        Ok (e, c, out)
      end
    | MEnv env =>
      let* c := next_token c in
      let* (c, out, args) := read_macro_args c (em_num env) (em_opt env) in
      match args with
      | None => Ok (e, c, out)
      | Some args =>
        let* (c, out2, body) := read_env_body (em_name env) c in
        match body with
        | None => Ok (e, c, out ++ out2)
        | Some body =>
          let* b := expand_tokens args (em_begin env) in
          let* d := expand_tokens args (em_end env) in
          let* c := resume_with (b ++ body ++ d) c in
          Ok (e, c, out ++ out2)
        end
      end
    end
  end.

(** macro_engine.rs:409-438: one iteration of the loop of [do_bump] on the
    peeked token *)
Definition step (e : engine) (c : ictx) (t : tok) : step_res :=
  match fst t with
  | CommandName (CIf i) => trapped_by_if e c t i
  | CommandName CElse => trapped_by_else e c t
  | CommandName CEndIf => trapped_by_endif e c t
  | CommandName Generic =>
    match split_bytes 1 (snd t) with
    | Some (_, name) => trapped_by_macro e c t name false
    | None => Panic "macro_engine.rs:427 str slice"
    end
  | CommandName BeginEnvironment => trapped_by_macro e c t (snd t) true
  | _ => let* c := next_token c in Ok (e, c, [t])
  end.

(** macro_engine.rs:404-439: the loop of [do_bump]; [room] is the number of
    tokens missing in the page.  A step pushes at most one token
    ([MacroFacts]). *)
Fixpoint bump_loop (fuel : nat) (room : nat) (e : engine) (c : ictx)
  : res (engine * ictx * list tok) :=
  match room with
  | O => Ok (e, c, [])
  | _ =>
    match ic_peeked c with
    | None => Ok (e, c, [])
    | Some t =>
      match fuel with
      | O => Fuel
      | S fuel =>
        let* (e, c, out) := step e c t in
        let* (e, c, out') := bump_loop fuel (room - List.length out) e c in
        Ok (e, c, out ++ out')
      end
    end
  end.

(** macro_engine.rs:390-445 [do_bump] with PEEK_CACHE_SIZE = [page].  The loop
    need not terminate (C17), hence the fuel. *)
Definition do_bump (fuel page : nat) (s : engine * ictx) : res (list tok * (engine * ictx)) :=
  let '(e, c) := s in
  let* c := match ic_peeked c with None => next_token c | Some _ => Ok c end in
  let* (e, c, out) := bump_loop fuel (page - 1) e c in
  Ok (out, (e, c)).

(** [Lexer::<MacroEngine>::new_with_bumper], lib.rs:88-101 *)
Definition macro_new (fuel page : nat) (e : engine) (sp : spec) (src : text)
  : res (lexer (engine * ictx)) :=
  lx_new (do_bump fuel page) (e, mk_ictx None (lex_stream sp src)).

(** All tokens delivered by the macro-expanding lexer (repeated [eat]); over any
    inner stream, and over a source text *)
Definition expand_stream (fuel page : nat) (e : engine) (s : lstream) : res (list tok) :=
  let* l := lx_new (do_bump fuel page) (e, mk_ictx None s) in
  lx_drain (do_bump fuel page) fuel l.
Definition expand_all (fuel page : nat) (e : engine) (sp : spec) (src : text) : res (list tok) :=
  expand_stream fuel page e (lex_stream sp src).

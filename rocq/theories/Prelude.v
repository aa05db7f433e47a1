(** The Typst side of a package: packages/mitex/specs/prelude.typ, and the scope
    that converted code is evaluated in (packages/mitex/specs/mod.typ,
    packages/mitex/mitex.typ).  [none] is [JvNull] (that is how [typst query]
    prints it) or [None]. *)
From Verif Require Export Decode.
Local Open Scope N_scope.

Section Prelude.
  (** Handlers: Typst functions and contents *)
  Context {H : Type}.

  (** A scope item: its field [alias], if it has one, and its handler *)
  Definition scope_item : Type := option json * H.
  (** What the define functions return *)
  Definition definition : Type := json * option scope_item.
  (** [(alias: s, handle: handle)] or [none] *)
  Definition with_handle (alias : json) (h : option H) : option scope_item :=
    option_map (fun h => (Some alias, h)) h.

  (** prelude.typ:11-20 *)
  Definition define_sym (s : text) (h : option H) : definition :=
    (kind_is "alias-sym" [(tx "alias", JvStr s)], with_handle (JvStr s) h).
  (** prelude.typ:32-41 *)
  Definition define_greedy_cmd (s : text) (h : option H) : definition :=
    (kind_is "greedy-cmd" [(tx "alias", JvStr s)], with_handle (JvStr s) h).
  (** prelude.typ:53-62 *)
  Definition define_infix_cmd (s : text) (h : option H) : definition :=
    (kind_is "infix-cmd" [(tx "alias", JvStr s)], with_handle (JvStr s) h).
  (** prelude.typ:80-89 *)
  Definition define_glob_cmd (pat s : text) (h : option H) : definition :=
    (kind_is "glob-cmd" [(tx "pattern", JvStr pat); (tx "alias", JvStr s)], with_handle (JvStr s) h).
  (** prelude.typ:101-114 *)
  Definition define_cmd (num : N) (alias : option text) (h : option H) : definition :=
    (kind_is "cmd" [(tx "args", kind_is "right" [(tx "pattern", kind_is "fixed-len" [(tx "len", JvNum num)])]);
                    (tx "alias", enc_opt alias)],
     with_handle (enc_opt alias) h).
  (** prelude.typ:133-151 *)
  Definition define_env (num : option N) (kind : text) (alias : option text) (h : option H) : definition :=
    (kind_is "env" [(tx "args", match num with
                                | Some n => kind_is "fixed-len" [(tx "len", JvNum n)]
                                | None => kind_is "none" []
                                end);
                    (tx "ctx_feature", JvObj [(tx "kind", JvStr kind)]);
                    (tx "alias", enc_opt alias)],
     with_handle (enc_opt alias) h).
  (** prelude.typ:153-167 *)
  Definition define_glob_env (pat kind : text) (alias : option text) (h : option H) : definition :=
    (kind_is "glob-env" [(tx "pattern", JvStr pat); (tx "ctx_feature", JvObj [(tx "kind", JvStr kind)]);
                         (tx "alias", enc_opt alias)],
     with_handle (enc_opt alias) h).
  (** prelude.typ:172-211 *)
  Definition sym : definition := (kind_is "sym" [], None).
  Definition of_sym (h : H) : definition := (kind_is "sym" [], Some (None, h)).
  Definition left1_op (alias : text) : definition :=
    (kind_is "cmd" [(tx "args", kind_is "left1" []); (tx "alias", JvStr alias)], None).
  Definition cmd1 : definition := (kind_is "cmd1" [], None).
  Definition cmd2 : definition := (kind_is "cmd2" [], None).
  Definition matrix_env : definition := (kind_is "matrix-env" [], None).

  (** [str.starts-with("#")], [str.slice(1)] *)
  Definition strip_hash (s : text) : text := match s with c :: r => if c =? 35 then r else s | [] => s end.
  (** prelude.typ:220-228: the name a scope item is stored under *)
  Definition scope_key (key : text) (s : scope_item) : text :=
    match fst s with Some (JvStr a) => strip_hash a | _ => key end.
  (** prelude.typ:214-234 [process-spec]: both dictionaries, filled in order *)
  Definition process_spec (defs : list (text * definition)) : list (text * json) * list (text * H) :=
    fold_left (fun acc e =>
      let '(key, (item, sc)) := e in
      (upsert key item (fst acc),
       match sc with Some s => upsert (scope_key key s) (snd s) (snd acc) | None => snd acc end))
      defs ([], []).

  (** mod.typ:5-6 [mitex-scope]: the scopes of the packages added up in order *)
  Definition mitex_scope (scopes : list (list (text * H))) : list (text * H) :=
    fold_left (fun acc s => fold_left (fun acc e => upsert (fst e) (snd e) acc) s acc) scopes [].
  (** mod.typ:8-11 with standard.typ:1185: what [typst query] answers for the
      packages (a scope is printed too; it is ignored) *)
  Definition query_answer (printed : list (text * H) -> json)
    (pkgs : list (text * (list (text * json) * list (text * H)))) : json :=
    JvArr [JvObj [(tx "func", JvStr (tx "metadata"));
      (tx "value", JvArr (map (fun p =>
         JvObj [(tx "name", JvStr (fst p)); (tx "spec", JvObj [(tx "commands", JvObj (fst (snd p)))]);
                (tx "scope", printed (snd (snd p)))]) pkgs));
      (tx "label", JvStr (tx "<mitex-packages>"))]].
End Prelude.
Arguments definition H : clear implicits.

(** Command specifications: crates/mitex-spec/src/{lib,preludes,query}.rs and
    the package merge of crates/mitex-spec-gen/build.rs. *)
From Verif Require Export Base.

(** lib.rs:237-285 [ArgPattern] ([GlobStr] is its string) *)
Inductive arg_pattern :=
| PNone
| PFixed (len : N)
| PRange (min max : N)
| PGreedy
| PGlob (pattern : text).

(** lib.rs:300-322 [ArgShape] *)
Inductive arg_shape :=
| SRight (p : arg_pattern)
| SLeft1
| SInfixGreedy.

(** lib.rs:329-354 [ContextFeature] *)
Inductive ctx_feature :=
| FNone | FMath | FMatrix | FCases | FFigure | FTable | FItemize | FEnumerate.

(** lib.rs:140-147 [CmdShape] *)
Record cmd_shape := { cs_args : arg_shape; cs_alias : option text }.
(** lib.rs:153-162 [EnvShape] *)
Record env_shape := { en_args : arg_pattern; en_feature : ctx_feature; en_alias : option text }.

(** lib.rs:36-42 [CommandSpecItem] *)
Inductive spec_item := SICmd (c : cmd_shape) | SIEnv (e : env_shape).

(** lib.rs:45-60 [CommandSpec]: the hash map, seen through [get]
    (lib.rs:103-105). *)
Definition spec := text -> option spec_item.

(** lib.rs:113-121 [get_cmd] *)
Definition get_cmd (s : spec) (name : text) : option cmd_shape :=
  match s name with Some (SICmd c) => Some c | _ => None end.
(** lib.rs:124-132 [get_env] *)
Definition get_env (s : spec) (name : text) : option env_shape :=
  match s name with Some (SIEnv e) => Some e | _ => None end.

(** The map given by a list of bindings (first binding wins). *)
Definition spec_of (l : list (text * spec_item)) : spec := fun n => assoc n l.

(* ---- preludes.rs ---- *)

(** preludes.rs:7-14 *)
Definition define_command (len : N) : spec_item :=
  SICmd {| cs_args := SRight (PFixed len); cs_alias := None |}.
(** preludes.rs:16-25 *)
Definition define_glob_command (reg alias : text) : spec_item :=
  SICmd {| cs_args := SRight (PGlob reg); cs_alias := Some alias |}.
(** preludes.rs:27-35 *)
Definition define_glob_env (reg alias : text) (f : ctx_feature) : spec_item :=
  SIEnv {| en_args := PGlob reg; en_feature := f; en_alias := Some alias |}.
(** preludes.rs:37-44 *)
Definition define_symbol (alias : text) : spec_item :=
  SICmd {| cs_args := SRight PNone; cs_alias := Some alias |}.
(** preludes.rs:46-53 *)
Definition define_command_with_alias (len : N) (alias : text) : spec_item :=
  SICmd {| cs_args := SRight (PFixed len); cs_alias := Some alias |}.
(** preludes.rs:55-62 *)
Definition define_greedy_command (alias : text) : spec_item :=
  SICmd {| cs_args := SRight PGreedy; cs_alias := Some alias |}.
(** preludes.rs:64-72 *)
Definition define_matrix_env (num : option N) (alias : text) : spec_item :=
  SIEnv {| en_args := match num with Some n => PFixed n | None => PNone end;
           en_feature := FMatrix; en_alias := Some alias |}.
(** preludes.rs:74-82 *)
Definition define_normal_env (num : option N) (alias : text) : spec_item :=
  SIEnv {| en_args := match num with Some n => PFixed n | None => PNone end;
           en_feature := FNone; en_alias := Some alias |}.
(** preludes.rs:83-85 *)
Definition define_const_command (a : arg_shape) : spec_item :=
  SICmd {| cs_args := a; cs_alias := None |}.
(** preludes.rs:87-114: the constants *)
Definition TEX_CMD0 := define_const_command (SRight (PFixed 0)).
Definition TEX_CMD1 := define_const_command (SRight (PFixed 1)).
Definition TEX_CMD2 := define_const_command (SRight (PFixed 2)).
Definition TEX_SYMBOL := define_const_command (SRight PNone).
Definition TEX_LEFT1_OPERATOR := define_const_command SLeft1.
Definition TEX_GREEDY_OPERATOR := define_const_command (SRight PGreedy).
Definition TEX_INFIX_OPERATOR := define_const_command SInfixGreedy.
Definition TEX_MATRIX_ENV :=
  SIEnv {| en_args := PNone; en_feature := FMatrix; en_alias := None |}.
Definition TEX_NORMAL_ENV :=
  SIEnv {| en_args := PNone; en_feature := FNone; en_alias := None |}.

(** preludes.rs:116-130 [SpecBuilder]: add_command inserts into the map *)
Definition spec_builder := list (text * spec_item).
Definition spec_builder_add (b : spec_builder) (name : text) (it : spec_item) : spec_builder := (name, it) :: b.
Definition spec_builder_build (b : spec_builder) : spec := spec_of b.

(* ---- query.rs ---- *)

(** query.rs:31-97 [query::CommandSpecItem]: items of the JSON specification *)
Inductive json_item :=
| JCmd (c : cmd_shape)
| JEnv (e : env_shape)
| JSymbol
| JCommand0 | JCommand1 | JCommand2
| JCmdLeft1
| JEnvMatrix | JEnvNormal
| JEnvGlob (pattern alias : text) (f : ctx_feature)
| JSymAlias (alias : text)
| JCmdGreedy (alias : text)
| JCmdInfix (alias : text)
| JCmdGlob (pattern alias : text).

(** query.rs:99-130 [From<CommandSpecItem> for crate::CommandSpecItem] *)
Definition canonical (j : json_item) : spec_item :=
  match j with
  | JCmd c => SICmd c
  | JEnv e => SIEnv e
  | JSymbol => TEX_SYMBOL
  | JCommand0 => TEX_CMD0
  | JCommand1 => TEX_CMD1
  | JCommand2 => TEX_CMD2
  | JCmdLeft1 => TEX_LEFT1_OPERATOR
  | JEnvMatrix => TEX_MATRIX_ENV
  | JEnvNormal => TEX_NORMAL_ENV
  | JEnvGlob p a f => define_glob_env p a f
  | JSymAlias a => define_symbol a
  | JCmdGreedy a => define_greedy_command a
  | JCmdInfix a => SICmd {| cs_args := SInfixGreedy; cs_alias := Some a |}
  | JCmdGlob p a => define_glob_command p a
  end.

(** [HashMap::insert] on an association list without duplicate keys: replaces
    the binding of [k] or adds one. *)
Fixpoint upsert {V} (k : text) (v : V) (l : list (text * V)) : list (text * V) :=
  match l with
  | [] => [(k, v)]
  | (k', v') :: r => if teqb k k' then (k, v) :: r else (k', v') :: upsert k v r
  end.

(** build.rs:118-122 (mitex-spec-gen): packages are merged in order with
    [HashMap::insert]; a package is the sequence of its entries in whatever
    order its hash map iterates. *)
Definition merge_packages (pkgs : list (list (text * json_item))) : list (text * json_item) :=
  fold_left (fun m pkg => fold_left (fun m e => upsert (fst e) (snd e) m) pkg m) pkgs [].

(** query.rs:142-158 [From<CommandSpecRepr>]: convert every item *)
Definition spec_of_json (m : list (text * json_item)) : list (text * spec_item) :=
  map (fun e => (fst e, canonical (snd e))) m.

(** The JSON form of specifications: what serde's derived [Deserialize] and
    [Serialize] do for the types of crates/mitex-spec/src/{lib,query}.rs, and the
    decoding of the answer of [typst query] (mitex-spec-gen/build.rs:93-122 and
    mitex-cli main.rs:159-195).  JSON values are given as values, not as text.
    Simplified: serde also accepts arrays in the place of objects and, inside an
    item, numbers in the place of tags; here both are refused. *)
From Verif Require Export Spec.
Local Open Scope N_scope.

(** JSON values; [JvOther] stands for booleans, negative numbers and fractions *)
Inductive json :=
| JvNull
| JvOther
| JvNum (n : N)
| JvStr (s : text)
| JvArr (l : list json)
| JvObj (l : list (text * json)).

(* ---- derive(Deserialize) ---- *)

(** The value of a field: a second occurrence is an error (outer [None]) *)
Definition field (k : text) (l : list (text * json)) : option (option json) :=
  match filter (fun e => teqb k (fst e)) l with
  | [] => Some None
  | [e] => Some (Some (snd e))
  | _ => None
  end.
(** A field that must be there; other fields are ignored *)
Definition required {A} (k : text) (dec : json -> option A) (l : list (text * json)) : option A :=
  match field k l with Some (Some v) => dec v | _ => None end.
(** A field of type [Option]: absent and null are [None] *)
Definition optional {A} (k : text) (dec : json -> option A) (l : list (text * json)) : option (option A) :=
  match field k l with
  | None => None
  | Some None | Some (Some JvNull) => Some None
  | Some (Some v) => option_map Some (dec v)
  end.
Definition dec_str (v : json) : option text := match v with JvStr s => Some s | _ => None end.
(** [u8] *)
Definition dec_u8 (v : json) : option N := match v with JvNum n => if n <? 256 then Some n else None | _ => None end.
(** [#[serde(tag = "kind")]]: the variant named by the field "kind" *)
Definition tagged {A} (variants : text -> list (text * json) -> option A) (v : json) : option A :=
  match v with
  | JvObj l =>
    match required (tx "kind") dec_str l with
    | None => None
    | Some t => variants t l
    end
  | _ => None
  end.

Definition obind {A B} (x : option A) (f : A -> option B) : option B := match x with Some a => f a | None => None end.
Notation "'let?' x ':=' e 'in' k" := (obind e (fun x => k)) (at level 200, x name, e at level 100, k at level 200).

(** lib.rs:324-354 [ContextFeature] *)
Definition dec_feature : json -> option ctx_feature := tagged (fun t _ =>
  if teqb t (tx "none") then Some FNone
  else if teqb t (tx "is-math") then Some FMath
  else if teqb t (tx "is-matrix") then Some FMatrix
  else if teqb t (tx "is-cases") then Some FCases
  else if teqb t (tx "is-figure") then Some FFigure
  else if teqb t (tx "is-table") then Some FTable
  else if teqb t (tx "is-itemize") then Some FItemize
  else if teqb t (tx "is-enumerate") then Some FEnumerate
  else None).
(** lib.rs:232-285 [ArgPattern], with [GlobStr] (lib.rs:183-201) read as a string *)
Definition dec_pattern : json -> option arg_pattern := tagged (fun t l =>
  if teqb t (tx "none") then Some PNone
  else if teqb t (tx "fixed-len") then option_map PFixed (required (tx "len") dec_u8 l)
  else if teqb t (tx "range-len") then
    let? a := required (tx "min") dec_u8 l in
    let? b := required (tx "max") dec_u8 l in Some (PRange a b)
  else if teqb t (tx "greedy") then Some PGreedy
  else if teqb t (tx "glob") then option_map PGlob (required (tx "pattern") dec_str l)
  else None).
(** lib.rs:295-322 [ArgShape] *)
Definition dec_shape : json -> option arg_shape := tagged (fun t l =>
  if teqb t (tx "right") then option_map SRight (required (tx "pattern") dec_pattern l)
  else if teqb t (tx "left1") then Some SLeft1
  else if teqb t (tx "infix-greedy") then Some SInfixGreedy
  else None).
(** lib.rs:136-147 [CmdShape] *)
Definition dec_cmd (l : list (text * json)) : option cmd_shape :=
  let? a := required (tx "args") dec_shape l in
  let? al := optional (tx "alias") dec_str l in
  Some {| cs_args := a; cs_alias := al |}.
(** lib.rs:149-162 [EnvShape] *)
Definition dec_env (l : list (text * json)) : option env_shape :=
  let? a := required (tx "args") dec_pattern l in
  let? f := required (tx "ctx_feature") dec_feature l in
  let? al := optional (tx "alias") dec_str l in
  Some {| en_args := a; en_feature := f; en_alias := al |}.
(** query.rs:27-97 [CommandSpecItem] *)
Definition dec_item : json -> option json_item := tagged (fun t l =>
  if teqb t (tx "cmd") then option_map JCmd (dec_cmd l)
  else if teqb t (tx "env") then option_map JEnv (dec_env l)
  else if teqb t (tx "sym") then Some JSymbol
  else if teqb t (tx "cmd0") then Some JCommand0
  else if teqb t (tx "cmd1") then Some JCommand1
  else if teqb t (tx "cmd2") then Some JCommand2
  else if teqb t (tx "left1-cmd") then Some JCmdLeft1
  else if teqb t (tx "matrix-env") then Some JEnvMatrix
  else if teqb t (tx "normal-env") then Some JEnvNormal
  else if teqb t (tx "glob-env") then
    let? p := required (tx "pattern") dec_str l in
    let? a := required (tx "alias") dec_str l in
    let? f := required (tx "ctx_feature") dec_feature l in Some (JEnvGlob p a f)
  else if teqb t (tx "alias-sym") then option_map JSymAlias (required (tx "alias") dec_str l)
  else if teqb t (tx "greedy-cmd") then option_map JCmdGreedy (required (tx "alias") dec_str l)
  else if teqb t (tx "infix-cmd") then option_map JCmdInfix (required (tx "alias") dec_str l)
  else if teqb t (tx "glob-cmd") then
    let? p := required (tx "pattern") dec_str l in
    let? a := required (tx "alias") dec_str l in Some (JCmdGlob p a)
  else None).

(** A list of values, all of which must decode *)
Fixpoint dec_all {A B} (dec : A -> option B) (l : list A) : option (list B) :=
  match l with
  | [] => Some []
  | a :: r => let? b := dec a in let? t := dec_all dec r in Some (b :: t)
  end.
(** query.rs:138-142 [CommandSpecRepr]: a hash map, a later entry replaces an
    earlier one *)
Definition dec_commands (v : json) : option (list (text * json_item)) :=
  match v with
  | JvObj l =>
    option_map (fun m => fold_left (fun acc e => upsert (fst e) (snd e) acc) m [])
      (dec_all (fun e => option_map (pair (fst e)) (dec_item (snd e))) l)
  | _ => None
  end.
Definition dec_repr (v : json) : option (list (text * json_item)) :=
  match v with JvObj l => required (tx "commands") dec_commands l | _ => None end.
(** query.rs:10-23 [PackageSpec], [PackagesVec] *)
Definition dec_package (v : json) : option (text * list (text * json_item)) :=
  match v with
  | JvObj l =>
    let? n := required (tx "name") dec_str l in
    let? s := required (tx "spec") dec_repr l in Some (n, s)
  | _ => None
  end.
Definition dec_packages (v : json) : option (list (text * list (text * json_item))) :=
  match v with JvArr l => dec_all dec_package l | _ => None end.
(** build.rs:95-116: the answer of the query, a list of one [QueryItem] *)
Definition dec_query (v : json) : option (list (text * list (text * json_item))) :=
  match v with
  | JvArr l =>
    let? q := dec_all (fun v => match v with JvObj l => required (tx "value") dec_packages l | _ => None end) l in
    match q with [p] => Some p | _ => None end
  | _ => None
  end.
(** build.rs:118-134: the specification made from the answer *)
Definition generate (v : json) : option (list (text * spec_item)) :=
  option_map (fun p => spec_of_json (merge_packages (map snd p))) (dec_query v).
(** wasm lib.rs:27-35 [compile_spec], before [to_bytes] *)
Definition compile_spec (v : json) : option (list (text * spec_item)) := option_map spec_of_json (dec_repr v).

(* ---- derive(Serialize) ---- *)

Definition kind_is (s : string) (l : list (text * json)) : json := JvObj ((tx "kind", JvStr (tx s)) :: l).
Definition enc_opt (a : option text) : json := match a with Some s => JvStr s | None => JvNull end.
Definition enc_feature (f : ctx_feature) : json :=
  kind_is (match f with
    | FNone => "none" | FMath => "is-math" | FMatrix => "is-matrix" | FCases => "is-cases"
    | FFigure => "is-figure" | FTable => "is-table" | FItemize => "is-itemize" | FEnumerate => "is-enumerate"
    end)%string [].
Definition enc_pattern (p : arg_pattern) : json :=
  match p with
  | PNone => kind_is "none" []
  | PFixed n => kind_is "fixed-len" [(tx "len", JvNum n)]
  | PRange a b => kind_is "range-len" [(tx "min", JvNum a); (tx "max", JvNum b)]
  | PGreedy => kind_is "greedy" []
  | PGlob g => kind_is "glob" [(tx "pattern", JvStr g)]
  end.
Definition enc_shape (s : arg_shape) : json :=
  match s with
  | SRight p => kind_is "right" [(tx "pattern", enc_pattern p)]
  | SLeft1 => kind_is "left1" []
  | SInfixGreedy => kind_is "infix-greedy" []
  end.
Definition enc_item (i : json_item) : json :=
  match i with
  | JCmd c => kind_is "cmd" [(tx "args", enc_shape (cs_args c)); (tx "alias", enc_opt (cs_alias c))]
  | JEnv e => kind_is "env" [(tx "args", enc_pattern (en_args e)); (tx "ctx_feature", enc_feature (en_feature e));
                             (tx "alias", enc_opt (en_alias e))]
  | JSymbol => kind_is "sym" []
  | JCommand0 => kind_is "cmd0" []
  | JCommand1 => kind_is "cmd1" []
  | JCommand2 => kind_is "cmd2" []
  | JCmdLeft1 => kind_is "left1-cmd" []
  | JEnvMatrix => kind_is "matrix-env" []
  | JEnvNormal => kind_is "normal-env" []
  | JEnvGlob p a f => kind_is "glob-env" [(tx "pattern", JvStr p); (tx "alias", JvStr a); (tx "ctx_feature", enc_feature f)]
  | JSymAlias a => kind_is "alias-sym" [(tx "alias", JvStr a)]
  | JCmdGreedy a => kind_is "greedy-cmd" [(tx "alias", JvStr a)]
  | JCmdInfix a => kind_is "infix-cmd" [(tx "alias", JvStr a)]
  | JCmdGlob p a => kind_is "glob-cmd" [(tx "pattern", JvStr p); (tx "alias", JvStr a)]
  end.
Definition enc_repr (m : list (text * json_item)) : json :=
  JvObj [(tx "commands", JvObj (map (fun e => (fst e, enc_item (snd e))) m))].
Definition enc_packages (l : list (text * list (text * json_item))) : json :=
  JvArr (map (fun p => JvObj [(tx "name", JvStr (fst p)); (tx "spec", enc_repr (snd p))]) l).

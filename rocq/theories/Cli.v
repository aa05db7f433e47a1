(** The command line: crates/mitex-cli/src/{lib,main}.rs.  Modelled:
    [process_opts] (what happens to the parsed options) and [compile]; clap's
    argument parsing and the other subcommands are not. *)
From Verif Require Export Spec.
Local Open Scope N_scope.

(* ---- std::path on Unix, the part used by [with_extension] ---- *)

(** The path with trailing separators and trailing [/.] components removed,
    reversed: what [Components::next_back] skips before the last component *)
Fixpoint drop_trailing (rp : text) : text :=
  match rp with
  | c :: r =>
    if c =? 47 then drop_trailing r
    else if c =? 46 then
      match r with
      | c' :: r' => if c' =? 47 then drop_trailing r' else rp
      | [] => rp
      end
    else rp
  | [] => []
  end.
(** [Path::file_name]: the text before the last component, and the last
    component if it is a normal one *)
Definition file_name (p : text) : option (text * text) :=
  let rp := drop_trailing (rev p) in
  let '(rn, rd) := span (fun c => negb (c =? 47)) rp in
  let n := rev rn in
  if teqb n [] || teqb n (tx ".") || teqb n (tx "..") then None
  else Some (rev rd, n).
(** [Path::file_stem]: up to the last dot, unless that dot comes first *)
Definition file_stem (n : text) : text :=
  let '(_, rs) := span (fun c => negb (c =? 46)) (rev n) in
  match rs with
  | _ :: ((_ :: _) as stem) => rev stem
  | _ => n
  end.
(** [Path::with_extension] *)
Definition with_extension (p ext : text) : text :=
  match file_name p with
  | None => p
  | Some (dir, n) => dir ++ file_stem n ++ (match ext with [] => [] | _ => 46 :: ext end)
  end.

(* ---- lib.rs ---- *)

(** lib.rs:43-129 [CompileArgs]: [--input], [--output] and the positional
    arguments as parsed by clap *)
Record compile_args := mk_args { a_input : text; a_output : text; a_positional : list text }.

(** lib.rs:196-247 [process_opts]: the errors *)
Inductive cli_error := TooManyPositional | MixedPositional | InputRequired.
Inductive cli_res := CliOk (input output : text) | CliErr (e : cli_error).

Definition process_opts (a : compile_args) : cli_res :=
  let fin (i o : text) :=
    match i with
    | [] => CliErr InputRequired
    | _ => CliOk i (match o with [] => with_extension i (tx "tex") | _ => o end)
    end in
  match a_input a, a_output a with
  | [], [] =>
    match a_positional a with
    | [] => fin [] []
    | [i] => fin i []
    | [i; o] => fin i o
    | _ => CliErr TooManyPositional
    end
  | i, o =>
    match a_positional a with
    | [] => fin i o
    | _ => CliErr MixedPositional
    end
  end.

(* ---- main.rs ---- *)

(** main.rs:94-117: the aliases to declare.  [items]: the specification items
    in the order the hash map iterates. *)
Definition item_alias (i : spec_item) : option text :=
  match i with SICmd c => cs_alias c | SIEnv e => en_alias e end.
Definition builtin_names : list text := [tx "and"; tx "or"; tx "in"; tx "not"].
Definition tmem (x : text) (l : list text) : bool := existsb (teqb x) l.
Definition alias_ok (a : text) : bool :=
  negb (match a with [] => true | _ => false end) && forallb is_ascii_alnum a.
Fixpoint collect_aliases (items : list (text * spec_item)) (acc : list text) : list text :=
  match items with
  | [] => acc
  | (_, it) :: r =>
    match item_alias it with
    | None => collect_aliases r acc
    | Some a =>
      if negb (alias_ok a) then collect_aliases r acc
      else if tmem a builtin_names || tmem a acc then collect_aliases r acc
      else collect_aliases r (a :: acc)
    end
  end.
(** [str::cmp]: bytewise lexicographic order *)
Fixpoint bytes_le (a b : list N) : bool :=
  match a, b with
  | [], _ => true
  | _ :: _, [] => false
  | x :: a', y :: b' => if x =? y then bytes_le a' b' else x <? y
  end.
Definition text_le (a b : text) : bool := bytes_le (utf8 a) (utf8 b).
(** [slice::sort] *)
Fixpoint insert_sorted (x : text) (l : list text) : list text :=
  match l with
  | [] => [x]
  | y :: r => if text_le x y then x :: l else y :: insert_sorted x r
  end.
Definition sort_texts (l : list text) : list text := fold_right insert_sorted [] l.

(** main.rs:119-125 *)
Definition prelude_line (a : text) : text :=
  tx "#let " ++ a ++ tx " = mitex-scope.at(" ++ [34] ++ a ++ [34] ++ tx ", default: none);".
Fixpoint join_lines (l : list text) : text :=
  match l with
  | [] => []
  | [a] => a
  | a :: r => a ++ [10] ++ join_lines r
  end.
Definition prelude_names (items : list (text * spec_item)) : list text :=
  sort_texts (collect_aliases items []).
Definition prelude (items : list (text * spec_item)) : text :=
  join_lines (map prelude_line (prelude_names items)).

(** main.rs:126-135: the file written *)
Definition document (items : list (text * spec_item)) (output : text) : text :=
  [10] ++ tx "#import " ++ [34] ++ tx "@preview/mitex:0.2.7" ++ [34] ++ tx ": *" ++ [10]
  ++ prelude items ++ [10; 10] ++ output.

(** A file system: contents by path (paths are compared as strings) *)
Definition files := text -> option text.
Definition fs_write (p s : text) (f : files) : files := fun q => if teqb q p then Some s else f q.

Inductive compile_res := Written (f : files) | CompileError | CompileCrash.

(** main.rs:72-138 [compile]; [conv] is convert_text with the default
    specification ([inl]: output, [inr tt]: Err), or the AST dump *)
Definition compile (conv : text -> option (option text)) (items : list (text * spec_item))
  (input output : text) (f : files) : compile_res :=
  match f input with
  | None => CompileError
  | Some src =>
    match conv src with
    | None => CompileCrash
    | Some None => CompileError
    | Some (Some o) => Written (fs_write output (document items o) f)
    end
  end.

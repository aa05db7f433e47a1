(** A run of the command line against a file system: crates/mitex-cli/src/main.rs
    [main] and [compile], with the system calls of [std::fs::read_to_string] and
    [std::fs::write] made one by one.  The operating system may answer any call
    with an error and may write fewer bytes than asked for; the process may be
    stopped after any call.  Simplified: the file is read in one call; nobody
    else writes to the files meanwhile; what a call has written is on the disk
    when it returns. *)
From Verif Require Export Api Cli.
Local Open Scope N_scope.

(** The disk: the bytes of every file; several paths may name the same file *)
Definition disk := N -> option (list N).
Definition disk_set (d : disk) (f : N) (b : list N) : disk := fun g => if g =? f then Some b else d g.
(** Appending to an open file *)
Definition disk_append (d : disk) (f : N) (b : list N) : disk :=
  disk_set d f (match d f with Some o => o ++ b | None => b end).

(** The answer of the operating system to a call: done, with the number of
    bytes taken if it was a write; interrupted; an error *)
Inductive io := IoDone (n : nat) | IoInterrupted | IoError.

(** Where the process is: the states of [compile] between system calls, and the
    ways it ends *)
Inductive cli_state :=
| KRead (d : disk)
| KConvert (d : disk) (src : text)
| KCreate (d : disk) (doc : list N)
| KWrite (d : disk) (rest : list N)
| KExit0 (d : disk)
| KExitError (d : disk)
| KPanic (d : disk).
Definition disk_of (s : cli_state) : disk :=
  match s with
  | KRead d | KConvert d _ | KCreate d _ | KWrite d _ | KExit0 d | KExitError d | KPanic d => d
  end.

Section Run.
  (** Which file a path names *)
  Variable resolve : text -> N.
  (** main.rs:79-88: [mitex::convert_text] with the default specification, or
      the dump of the syntax tree *)
  Variable conv : text -> cres text.
  (** main.rs:98 [spec.items()] *)
  Variable items : list (text * spec_item).

  (** main.rs:73-74 (read), 76-90 (convert), 119-135 (document), 126 with
      [std::fs::write] = [File::create] then [write_all]: a write that takes
      nothing is the error WriteZero, an interrupted one is repeated; main.rs:45
      and utils.rs:43-58: errors end the process with a message *)
  Definition cli_step (input output : text) (a : io) (s : cli_state) : cli_state :=
    match s with
    | KRead d =>
      match a with
      | IoError => KExitError d
      | IoInterrupted => s
      | IoDone _ =>
        match d (resolve input) with
        | None => KExitError d
        | Some b => match utf8_decode b with None => KExitError d | Some src => KConvert d src end
        end
      end
    | KConvert d src =>
      match conv src with
      | COk o => KCreate d (utf8 (document items o))
      | CErr _ => KExitError d
      | CPanic _ => KPanic d
      | CFuel => s
      end
    | KCreate d doc =>
      match a with
      | IoError => KExitError d
      | IoInterrupted => s
      | IoDone _ => KWrite (disk_set d (resolve output) []) doc
      end
    | KWrite d rest =>
      match rest with
      | [] => KExit0 d
      | _ =>
        match a with
        | IoError => KExitError d
        | IoInterrupted => s
        | IoDone 0 => KExitError d
        | IoDone n => KWrite (disk_append d (resolve output) (firstn n rest)) (skipn n rest)
        end
      end
    | KExit0 _ | KExitError _ | KPanic _ => s
    end.

  (** The state after the given answers *)
  Definition cli_run (input output : text) (answers : list io) (d : disk) : cli_state :=
    fold_left (fun s a => cli_step input output a s) answers (KRead d).

  (** main.rs:32-46 [main] for the subcommand compile: options are checked
      first, then a version request is answered (version.rs:103-121), then the
      file is compiled.  [version]: [-V] or a [--VV] format was given. *)
  Definition main_compile (version : bool) (a : compile_args) (answers : list io) (d : disk) : cli_state :=
    match process_opts a with
    | CliErr _ => KExitError d
    | CliOk i o => if version then KExit0 d else cli_run i o answers d
    end.
End Run.

(** main.rs:76-88: the two stages.  The dump of a tree ([{:#?}]) is not
    modelled: any function *)
Definition compile_document (fuel : nat) (src : text) : cres text :=
  convert_text fuel PAGE src (Some DEFAULT_SPEC).
Definition compile_syntax (dump : tree -> text) (fuel : nat) (src : text) : cres text :=
  match parse_macro fuel PAGE DEFAULT_SPEC src with
  | Ok t => COk (dump t)
  | Panic e => CPanic e
  | Fuel => CFuel
  end.

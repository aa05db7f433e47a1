(** Specification for C71: characters that stand in the generated code unhidden,
    that is, without a backslash before them. *)
From Verif Require Export Base Token.
Local Open Scope N_scope.

(** [hides bad s]: reading [s] from the left, where a backslash hides the
    character after it, no character that is [bad] stands there unhidden (and no
    backslash stands at the end). *)
Inductive hides (bad : char -> Prop) : text -> Prop :=
| hi_end : hides bad []
| hi_char c s : c <> 92 -> ~ bad c -> hides bad s -> hides bad (c :: s)
| hi_hidden c s : hides bad s -> hides bad (92 :: c :: s).

(** What begins something in Typst that swallows what follows: [/] a comment
    (line or block) or a term list, a double quote (34) a string, [@] a
    reference, an asterisk strong text; and a backquote (96) raw text, unless
    it stands in the source. *)
Definition swallows (src : text) (c : char) : Prop :=
  In c (34 :: tx "/@*") \/ c = 96 /\ ~ In 96 src.

(** the commands that copy a part of the source, and [\iftypst], which copies all of it *)
Definition copies (u : tok) : Prop :=
  fst u = CommandName (CIf IfTypst) \/
  (exists c, fst u = CommandName c) /\
    In (snd u) (map tx ["\label"; "\includegraphics"; "\color"; "\textcolor"; "\colorbox"]%string).

(** The library interface: crates/mitex-parser/src/lib.rs,
    crates/mitex/src/{lib,converter}.rs, crates/mitex-wasm/src/lib.rs. *)
From Verif Require Export Macro Parser Converter Glob DefaultSpec.
Local Open Scope N_scope.

(** [mitex_glob::glob_match_prefix] (Glob.v) *)
Definition gm_real : text -> text -> bool := glob_match_prefix.

(** PEEK_CACHE_SIZE (stream.rs:53-55, macro_engine.rs:393-395) on a 64-bit
    target: (4096 - 16) / size_of::<Tok>() with a 24-byte Tok *)
Definition PAGE : nat := 170.

(** parser lib.rs:34-36 [parse].  The fuel bounds the expansion loop, which
    need not terminate (C17), and the parser. *)
Definition parse_macro (fuel page : nat) (sp : spec) (src : text) : res tree :=
  let* l := macro_new fuel page engine_new sp src in
  parse_lexer (do_bump fuel page) gm_real sp fuel l.
(** parser lib.rs:39-41 [parse_without_macro] *)
Definition parse_without_macro (fuel page : nat) (sp : spec) (src : text) : res tree :=
  let* l := plain_new page sp src in
  parse_lexer (plain_bump page) gm_real sp fuel l.

(** converter.rs:1204-1232 [convert_inner] *)
Definition convert_inner (do_parse : spec -> text -> res tree) (m : mode)
  (sp : option spec) (src : text) : cres text :=
  match do_parse (match sp with Some s => s | None => DEFAULT_SPEC end) src with
  | Panic e => CPanic e
  | Fuel => CFuel
  | Ok node => convert_tree DEFAULT_SPEC m node
  end.

(** mitex lib.rs:11-22 *)
Definition convert_text (fuel page : nat) (src : text) (sp : option spec) : cres text :=
  convert_inner (parse_macro fuel page) MText sp src.
Definition convert_math (fuel page : nat) (src : text) (sp : option spec) : cres text :=
  convert_inner (parse_macro fuel page) MMath sp src.
Definition convert_math_no_macro (fuel page : nat) (src : text) (sp : option spec) : cres text :=
  convert_inner (parse_without_macro fuel page) MMath sp src.

(* ---- the plugin interface, crates/mitex-wasm/src/lib.rs ---- *)

(** [std::str::from_utf8]: decoding of one character (RFC 3629 table as in
    core::str::validations) *)
Definition is_cont (b : N) : bool := (0x80 <=? b) && (b <=? 0xBF).
Fixpoint utf8_decode (bs : list N) : option text :=
  match bs with
  | [] => Some []
  | b0 :: r0 =>
    if b0 <? 0x80 then option_map (cons b0) (utf8_decode r0)
    else match r0 with
    | [] => None
    | b1 :: r1 =>
      if (0xC2 <=? b0) && (b0 <=? 0xDF) && is_cont b1 then
        option_map (cons ((b0 - 0xC0) * 0x40 + (b1 - 0x80))) (utf8_decode r1)
      else match r1 with
      | [] => None
      | b2 :: r2 =>
        let ok3 :=
          (((b0 =? 0xE0) && (0xA0 <=? b1) && (b1 <=? 0xBF))
           || ((0xE1 <=? b0) && (b0 <=? 0xEC) && is_cont b1)
           || ((b0 =? 0xED) && (0x80 <=? b1) && (b1 <=? 0x9F))
           || ((0xEE <=? b0) && (b0 <=? 0xEF) && is_cont b1)) && is_cont b2 in
        if ok3 then
          option_map (cons ((b0 - 0xE0) * 0x1000 + (b1 - 0x80) * 0x40 + (b2 - 0x80)))
            (utf8_decode r2)
        else match r2 with
        | [] => None
        | b3 :: r3 =>
          let ok4 :=
            (((b0 =? 0xF0) && (0x90 <=? b1) && (b1 <=? 0xBF))
             || ((0xF1 <=? b0) && (b0 <=? 0xF3) && is_cont b1)
             || ((b0 =? 0xF4) && (0x80 <=? b1) && (b1 <=? 0x8F))) && is_cont b2 && is_cont b3 in
          if ok4 then
            option_map
              (cons ((b0 - 0xF0) * 0x40000 + (b1 - 0x80) * 0x1000 + (b2 - 0x80) * 0x40 + (b3 - 0x80)))
              (utf8_decode r3)
          else None
        end
      end
    end
  end.

(** Result of a plugin function: bytes, an error string, a trap or no answer *)
Inductive plugin_res :=
| PBytes (b : list N)
| PUtf8Error
| PConvertError (e : cerr)
| PTrap (site : string)
| PFuel.

Section Plugin.
  (** spec lib.rs:82-86 [CommandSpec::from_bytes] (rkyv) is not modelled: any
      function from bytes to specifications *)
  Variable from_bytes : list N -> spec.
  (** wasm lib.rs:37-39 [extract_spec] *)
  Definition extract_spec (b : list N) : option spec :=
    match b with [] => None | _ => Some (from_bytes b) end.
  (** wasm lib.rs:63-65, 78-96 [wasm_into_str], [convert_math], [convert_text] *)
  Definition plugin (conv : text -> option spec -> cres text) (input spec : list N) : plugin_res :=
    match utf8_decode input with
    | None => PUtf8Error
    | Some s =>
      match conv s (extract_spec spec) with
      | COk o => PBytes (utf8 o)
      | CErr e => PConvertError e
      | CPanic p => PTrap p
      | CFuel => PFuel
      end
    end.
  Definition plugin_convert_math fuel page := plugin (convert_math fuel page).
  Definition plugin_convert_text fuel page := plugin (convert_text fuel page).
End Plugin.

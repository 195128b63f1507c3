(** Model of the error type: projects/oak-core/src/errors/mod.rs, display.rs, from_std.rs.  Texts are lists of characters.
    Boxing is not modelled: an [OakError] is its kind. *)
From Verif Require Import Base Utf8 HiModel.

(** [std::io::Error]: its kind, the code of the operating system if it has one, and what its [Display] shows. *)
Record io_error := IoErr { io_kind : nat; io_code : option nat; io_text : str }.
(** source/mod.rs:26 *)
Definition source_id := option nat.

(** mod.rs:108-274; the constructors mod.rs:309-465 and from_std.rs only wrap these *)
Inductive error :=
| EIo (e : io_error) (s : source_id)
| ESyntax (m : str) (off : nat) (s : source_id)
| EChar (c : Z) (off : nat) (s : source_id)
| EToken (t : str) (off : nat) (s : source_id)
| EEof (off : nat) (s : source_id)
| ECustom (m : str)
| ETheme (m : str)
| EFormatName (m : str)
| EColor (m : str)
| EFormat (m : str)
| ESemantic (m : str)
| EProtocol (m : str)
| EExpected (t : str) (off : nat) (s : source_id)
| EName (t : str) (off : nat) (s : source_id)
| EComma (off : nat) (s : source_id)
| ETest (path expected actual : str)
| ERegenerated (path : str)
| ESerde (m : str)
| EDeserialize (m : str)
| EXml (m : str)
| EZip (m : str)
| EParse (m : str)
| EInternal (m : str).

(** mod.rs:276-305 [key] *)
Definition key (e : error) : str :=
  match e with
  | EIo _ _ => lit "error.io"
  | ESyntax _ _ _ => lit "error.syntax"
  | EChar _ _ _ => lit "error.unexpected_character"
  | EToken _ _ _ => lit "error.unexpected_token"
  | EEof _ _ => lit "error.unexpected_eof"
  | ECustom _ => lit "error.custom"
  | ETheme _ => lit "error.invalid_theme"
  | EFormatName _ => lit "error.unsupported_format"
  | EColor _ => lit "error.color_parse"
  | EFormat _ => lit "error.format"
  | ESemantic _ => lit "error.semantic"
  | EProtocol _ => lit "error.protocol"
  | EExpected _ _ _ => lit "error.expected_token"
  | EName _ _ _ => lit "error.expected_name"
  | EComma _ _ => lit "error.trailing_comma_not_allowed"
  | ETest _ _ _ => lit "error.test_failure"
  | ERegenerated _ => lit "error.test_regenerated"
  | ESerde _ => lit "error.serde"
  | EDeserialize _ => lit "error.deserialize"
  | EXml _ => lit "error.xml"
  | EZip _ => lit "error.zip"
  | EParse _ => lit "error.parse"
  | EInternal _ => lit "error.internal"
  end.

(** [Debug] of [Option<u32>] *)
Definition show_source (s : source_id) : str :=
  match s with None => lit "None" | Some n => lit "Some(" ++ dec n ++ lit ")" end.
(** [{:?}:{}] of a source and an offset *)
Definition place (s : source_id) (off : nat) : str := show_source s ++ lit ":" ++ dec off.

(** display.rs:18-67.  [show_path] is [Debug] of a path. *)
Definition details (show_path : str -> str) (e : error) : str :=
  match e with
  | EIo e s => lit "(" ++ show_source s ++ lit ")" ++ lit ": " ++ io_text e
  | ESyntax m off s => m ++ lit ": (at " ++ place s off ++ lit ")"
  | EChar c off s => lit "unexpected character '" ++ [c] ++ lit "' at " ++ place s off
  | EToken t off s => lit "unexpected token '" ++ t ++ lit "' at " ++ place s off
  | EEof off s => lit "unexpected end of file at " ++ place s off
  | ECustom m | ETheme m | EFormat m | ESemantic m | EProtocol m => m
  | EFormatName f => lit "unsupported format: " ++ f
  | EColor c => lit "invalid color: " ++ c
  | EExpected t off s => lit "expected token '" ++ t ++ lit "' at " ++ place s off
  | EName n off s => lit "expected " ++ n ++ lit " at " ++ place s off
  | EComma off s => lit "trailing comma not allowed at " ++ place s off
  | ETest p e a => lit "test failure in " ++ show_path p ++ lit ": expected " ++ e ++ lit ", found " ++ a
  | ERegenerated p => lit "test regenerated: " ++ show_path p
  | ESerde m => lit "serde error: " ++ m
  | EDeserialize m => lit "deserialization error: " ++ m
  | EXml m => lit "XML error: " ++ m
  | EZip m => lit "zip error: " ++ m
  | EParse m => lit "parse error: " ++ m
  | EInternal m => lit "internal error: " ++ m
  end.
Definition display (show_path : str -> str) (e : error) : str := key e ++ details show_path e.

(** mod.rs:467-480 [with_source_id] *)
Definition with_source_id (n : nat) (e : error) : error :=
  match e with
  | EIo e _ => EIo e (Some n)
  | ESyntax m off _ => ESyntax m off (Some n)
  | EChar c off _ => EChar c off (Some n)
  | EToken t off _ => EToken t off (Some n)
  | EExpected t off _ => EExpected t off (Some n)
  | EName t off _ => EName t off (Some n)
  | EComma off _ => EComma off (Some n)
  | other => other
  end.

(** mod.rs:483-515 [clone]: all fields are copied; an input/output error is made anew from its kind and text, which
    drops the code of the operating system *)
Definition clone (e : error) : error :=
  match e with
  | EIo e s => EIo (IoErr (io_kind e) None (io_text e)) s
  | other => other
  end.

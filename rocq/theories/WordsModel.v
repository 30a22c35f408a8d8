(** The words of the messages of ReportModel: crates/ide-diagnostics/src/handlers/*.rs and lib.rs:188-219.
    Strings are bytes; bytes of characters beyond ASCII are taken to be printable, so that [{:?}] leaves them as they are. *)
From Coq Require Import List String Ascii Arith Bool.
From Verif Require Import ReportModel ItemTreeModel.
Import ListNotations.
Local Open Scope nat_scope.
Local Open Scope string_scope.

Definition hex_digit (n : nat) : string := nth n ["0"; "1"; "2"; "3"; "4"; "5"; "6"; "7"; "8"; "9"; "a"; "b"; "c"; "d"; "e"; "f"] "".
Definition dquote : ascii := ascii_of_nat 34.
(** char::escape_debug, with the single quote kept as in str's Debug *)
Definition escape_char (c : ascii) : string :=
  let n := nat_of_ascii c in
  (if Nat.eqb n 0 then "\0" else if Nat.eqb n 9 then "\t" else if Nat.eqb n 10 then "\n" else if Nat.eqb n 13 then "\r"
   else if Nat.eqb n 34 then String "\" (String dquote "") else if Nat.eqb n 92 then "\\"
   else if (Nat.ltb n 32) || (Nat.eqb n 127) then "\u{" ++ (if Nat.ltb n 16 then "" else hex_digit (Nat.div n 16)) ++ hex_digit (Nat.modulo n 16) ++ "}"
   else String c "").
Fixpoint escape (s : string) : string := match s with "" => "" | String c s => escape_char c ++ escape s end.
(** [{:?}] of a string *)
Definition debug (s : string) : string := String dquote (escape s ++ String dquote "").

Definition ticks (s : string) : string := "`" ++ s ++ "`".
(** [[String]::join] *)
Fixpoint join (sep : string) (l : list string) : string :=
  match l with [] => "" | [x] => x | x :: tl => x ++ sep ++ join sep tl end.

Definition words (m : message) : string :=
  match m with
  | MExpected names => "expected " ++ debug (join ", " (map ticks names))           (* lib.rs:205-219 *)
  | MSexp s => s                                                                    (* lib.rs:169-174 *)
  | MMissing kind => "expected " ++ ticks kind                                      (* lib.rs:190-194 *)
  | MText s => s                                                                    (* preprocessor_evaluation_error.rs:13-17 *)
  | MFileNotFound path => "file " ++ ticks path ++ " was not found"                 (* unresolved_include.rs:14 *)
  | MNoMacro name => "no macro " ++ ticks name ++ " found"                          (* unresolved_macro.rs:14 *)
  | MInactive => "code is inactive due to preprocessor directives"                  (* inactive_code.rs:9 *)
  | MNoField name receiver but =>                                                   (* unresolved_field.rs:12-25 *)
      "no field " ++ ticks name ++ " on type " ++ ticks receiver ++ (if but then ", but a method with a similar name exists" else "")
  | MNoMethod name receiver but =>                                                  (* unresolved_method_call.rs:12-25 *)
      "no method " ++ ticks name ++ " on type " ++ ticks receiver ++ (if but then ", but a field with a similar name exists" else "")
  | MNoConstructor name => "methodmap " ++ ticks name ++ " does not have a constructor"       (* unresolved_constructor.rs:14-22 *)
  | MEnumStructConstructed name => "enum struct " ++ ticks name ++ " found, expected a methodmap"
  | MNoMethodmap name => "methodmap " ++ ticks name ++ " does not exist"            (* also unresolved_inherit.rs:15 *)
  | MNoParameter name callee => "no parameter " ++ ticks name ++ " found for " ++ ticks callee (* unresolved_named_arg.rs:15 *)
  | MAtLeast expected name actual =>                                                (* incorrect_number_of_arguments.rs:12-22 *)
      "expected at least " ++ decimal expected ++ " arguments for " ++ ticks name ++ " call, found " ++ decimal actual
  | MAtMost expected name actual =>
      "expected at most " ++ decimal expected ++ " arguments for " ++ ticks name ++ " call, found " ++ decimal actual
  | MNotMethodmap name => ticks name ++ " is not a methodmap"                       (* unresolved_inherit.rs:13 *)
  end.
(** sourcepawn_lsp/src/diagnostics.rs:163: what is sent *)
Definition sent_words (l : lsp_diagnostic) : string := words (l_message l).

(* SpecLogDebug.v -- vocabulary for the statements about the lines for debugging. *)
From Coq Require Import String Ascii List.
From Verif Require Import SpecLog.
Local Open Scope string_scope.

(* The line a part of the program (module) writes for debugging. *)
Definition debug_line (module message : string) : string := "[DEBUG]" ++ TAB ++ "[" ++ module ++ "]:" ++ TAB ++ message.

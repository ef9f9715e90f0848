(** * Spec_Nested: templates rendered from inside a helper (C84).  No proofs in this file. *)
From Coq Require Import String.
From Verif Require Import Str Json Ast Parser Render Helpers Registry Spec_Source Spec_Sem Spec_Fail.
Open Scope nat_scope. Open Scope list_scope.

(** too many calls in progress *)
Definition cyclic (s : stop) : Prop := (exists n, s = Fails (EHelperCycle n)) \/ (exists n, s = Fails (EPartialCycle n)).

(** * Tests: the repository's own integration tests replayed on the model by computation.
    These are tests of the model's fidelity, not proofs of properties.  The generated part comes from
    /verif/tools/gen_tests.py. *)
From Coq Require Import String.
From Verif Require Import Str Lexer Json Ast ErrInfo Parser Render Helpers Registry.
Open Scope nat_scope. Open Scope list_scope.

Definition pe0 : penv := mkPenv (fun _ => 1) (fun _ => None) true.
Definition pl0 : plat := mkPlat pe0 (fun _ => []) (fun _ c => c_params c) (fun _ => lit "error") true.
Definition reg0 : registry := registry_new pl0.
Definition ins (n src : str) (r : registry) : registry := snd (registry_insert pl0 n src r).
Definition once (r : registry) (src : str) (d : json) : ares str := registry_once 100 pl0 r (lit "t") src d.
Definition syn (src : str) : option (serr * option str) :=
  match registry_parse pl0 (lit "t") src with
  | AErr (XSyntax e) => Some (se_kind e, Some (se_info e))
  | _ => None
  end.


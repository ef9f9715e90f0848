(** * Spec_Laws: vocabulary of the laws that relate two renders (C66-C69).  No proofs in this file. *)
From Coq Require Import String.
From Verif Require Import Str Json Ast Parser Messages Render Registry Spec_Source.
Open Scope nat_scope. Open Scope list_scope.

(** A helper program that hands the errors in [bad] on to its caller unchanged whenever rendering a template (or
    choosing an [else] branch) for it ends with one, asks the registry only for templates in [asks], and renders no
    source text of its own with [once] (which turns errors into messages); the same for the helpers it registers. *)
Fixpoint forwards (bad : rerr -> Prop) (asks : str -> Prop) (p : hprog) : Prop :=
  let go := forwards bad asks in
  match p with
  | HRet _ | HFail _ | HPanic => True
  | HTemplate _ k | HRender _ k => (forall r, go (k r)) /\ forall e, bad e -> k (HErr e) = HFail e
  | HBuffer _ k => (forall r, go (k r)) /\ forall e, bad e -> k (HErr e) = HFail e
  | HInverse _ k => (forall r, go (k r)) /\ forall e, bad e -> k (HErr e) = HFail e
  | HOnce _ _ _ _ => False
  | HWrite _ _ k | HOut _ k => forall r, go (k r)
  | HPushScope _ k | HScopeMut _ k | HUnregister _ k => go k
  | HPopScope k => forall r, go (k r)
  | HEval _ k => forall r, go (k r)
  | HRegister _ h k => (forall c t, go (h c t)) /\ go k
  | HGetTemplate n k => asks n /\ forall r, go (k r)
  | HData k => forall r, go (k r)
  | HNames k => forall a b, go (k a b)
  | HEscape _ k => forall r, go (k r)
  | HLog _ _ k => go k
  end.
Definition forwarding (bad : rerr -> Prop) (asks : str -> Prop) (h : helper) : Prop := forall c t, forwards bad asks (h c t).
(** every helper and handler of the registry *)
Definition forwarding_registry (bad : rerr -> Prop) (asks : str -> Prop) (r : registry) : Prop :=
  (forall n h, In (n, h) (rg_helpers r) -> forwarding bad asks h)
  /\ (forall h, rg_link r = Some h -> forwarding bad asks h)
  /\ (forall h, rg_missing r = Some h -> forwarding bad asks h)
  /\ (forall h, rg_block_missing r = Some h -> forwarding bad asks h).

(** the error for a partial that is not registered, and the two errors of strict mode *)
Definition not_found (n : str) (e : rerr) : Prop := e = EPartialNotFound n.
Definition missing_error (e : rerr) : Prop := (exists n t, e = EVariableNotFound n t) \/ (exists n, e = EHelperNotFound n).

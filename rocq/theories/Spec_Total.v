(** * Spec_Total: registries and documents for which the semantics of Spec_Sem and Spec_Fail leaves nothing open.  No proofs in this file. *)
From Coq Require Import String.
From Verif Require Import Str Lexer Json Ast Parser Render Helpers Registry Spec_Lexer Spec_Values Spec_Helpers Spec_Blocks Spec_Calls Spec_Source Spec_Sem Spec_Fail.
Open Scope nat_scope. Open Scope list_scope.

(** a helper that (called with or without a block) does one of: write some texts and give a value or none, fail, panic; which one, and with what,
    depends on its name, arguments, text, property and on what it sees of the renderer ([sees]) only *)
Definition simple (w : world) (blk : bool) (f : helper) : Prop :=
  forall scs n vs ps text prop, exists p, acts w scs f n vs ps text prop blk p
    /\ ((exists ws v, p = writes ws v) \/ (exists s, p = halt s)).
(** ... and never writes *)
Definition pure (w : world) (f : helper) : Prop :=
  forall scs n vs ps text prop, exists p, acts w scs f n vs ps text prop false p /\ ((exists v, p = HRet v) \/ (exists s, p = halt s)).

(** a call used for its value calls no helper that writes *)
Definition silent (w : world) (c : callx) : Prop :=
  match c with Call h t _ _ => forall scs n f, called w scs h t n f -> pure w f end.
Definition is_sub (x : expr) : bool := match x with ESub _ => true | _ => false end.
(** at most one hash argument of a call is a call itself (the order in which they are evaluated is that of a hash table) *)
Inductive tame_expr (w : world) : expr -> Prop :=
| te_value x : is_sub x = false -> tame_expr w x
| te_sub c : silent w c -> tame_call w c -> tame_expr w (ESub c)
with tame_call (w : world) : callx -> Prop :=
| tc_call h t xs hs : Forall (tame_expr w) xs -> Forall (fun kx => tame_expr w (snd kx)) hs ->
    length (filter (fun kx => is_sub (snd kx)) hs) <= 1 -> tame_call w (Call h t xs hs).
Definition tame_args (w : world) (xs : list expr) (hs : list (str * expr)) : Prop :=
  Forall (tame_expr w) xs /\ Forall (fun kx => tame_expr w (snd kx)) hs /\ length (filter (fun kx => is_sub (snd kx)) hs) <= 1.
(** every call of the item is like that; a raw block is not one of [if], [unless], [with], [each] *)
Inductive tame (w : world) : item -> Prop :=
| tm_text s : tame w (IText s)
| tm_call triple m p c : tame_call w c -> tame w (ICall triple m p c)
| tm_dyn triple m p c xs hs : tame_call w c -> (p = true -> silent w c) -> tame_args w xs hs -> tame w (IDyn triple m p c xs hs)
| tm_comment s : tame w (IComment s)
| tm_raw_comment s : tame w (IRawComment s)
| tm_escaped s : tame w (IEscaped s)
| tm_link esc parts : tame w (ILink esc parts)
| tm_raw c m s m' : tame_call w c -> (forall f, assoc (call_name c) (rg_helpers (w_reg w)) = Some f -> simple w true f) -> tame w (IRaw c m s m')
| tm_block p c m body bs m' : tame_call w c -> Forall (tame w) body ->
    Forall (fun b => (forall x, br_cond b = Some x -> silent w x /\ tame_call w x) /\ Forall (tame w) (br_body b)) bs ->
    tame w (IBlock p c m body bs m').

(** every helper of the registry is a standard block helper or simple, and every template is the text of a tame document *)
Record closed (w : world) : Prop := mkClosed {
  cl_helper : forall n f, assoc n (rg_helpers (w_reg w)) = Some f ->
    simple w false f /\ (simple w true f \/ (In n block_helpers /\ builtin (w_plat w) n f));
  cl_missing : forall f, rg_missing (w_reg w) = Some f -> simple w false f;
  cl_block_missing : forall f, rg_block_missing (w_reg w) = Some f -> simple w true f;
  cl_link : forall f, rg_link (w_reg w) = Some f -> simple w false f;
  cl_templates : forall n, assoc n (rg_templates (w_reg w)) <> None -> assoc n (w_docs w) <> None;
  cl_docs : forall n d, assoc n (w_docs w) = Some d -> Forall (tame w) d }.

(** ** Standard helpers only: what is left are conditions on the text of a document *)
Fixpoint tidy_expr (x : expr) : bool := match x with ESub c => tidy_call c | _ => true end
with tidy_call (c : callx) : bool :=
  match c with
  | Call _ _ xs hs => forallb tidy_expr xs && forallb (fun kx => tidy_expr (snd kx)) hs && (length (filter (fun kx => is_sub (snd kx)) hs) <=? 1)
  end.
Definition tidy_args (xs : list expr) (hs : list (str * expr)) : bool :=
  forallb tidy_expr xs && forallb (fun kx => tidy_expr (snd kx)) hs && (length (filter (fun kx => is_sub (snd kx)) hs) <=? 1).
(** no call has two sub-expressions among its hash arguments, no raw block is called [if], [unless], [with] or [each] *)
Fixpoint tidy (i : item) : bool :=
  match i with
  | ICall _ _ _ c => tidy_call c
  | IDyn _ _ _ c xs hs => tidy_call c && tidy_args xs hs
  | IRaw c _ _ _ => tidy_call c && negb (existsb (streq (call_name c)) block_helpers)
  | IBlock _ c _ body bs _ => tidy_call c && forallb tidy body
      && forallb (fun b => match fst (fst b) with Some x => tidy_call x | None => true end && forallb tidy (snd b)) bs
  | _ => true
  end.
(** a registry with standard helpers and no handlers *)
Definition only_standard (w : world) : Prop :=
  (forall n f, assoc n (rg_helpers (w_reg w)) = Some f -> builtin (w_plat w) n f)
  /\ rg_missing (w_reg w) = None /\ rg_block_missing (w_reg w) = None /\ rg_link (w_reg w) = None.

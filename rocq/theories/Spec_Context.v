(** * Spec_Context: the vocabulary of the properties about what a helper sees of its call (C59).  No proofs in this file. *)
From Coq Require Import String.
From Verif Require Import Str Json Ast Parser Render Helpers Spec_Ast.
Open Scope nat_scope. Open Scope list_scope.

(** Every call of a template: the statements, the blocks, their {{else}} branches, and the sub-expressions inside. *)
Fixpoint calls_in (c : call) : list call :=
  match c with
  | mkCall _ _ _ _ tgt args params _ =>
      c :: target_calls tgt ++ flat_map param_calls args ++ flat_map (fun kv => param_calls (snd kv)) params
  end
with target_calls (t : target) : list call := match t with TPath _ => [] | TSub c => calls_in c end
with param_calls (v : param) : list call := match v with VSub c => calls_in c | _ => [] end.
Definition tree_calls (n : node) : list call :=
  flat_map (fun x => match x with NStmt c => calls_in c | _ => [] end) (node_leaves n)
  ++ flat_map (fun fb : bool * block => calls_in (b_call (snd fb))) (node_blocks false n).

(** What a helper called for [c] in [src] reads as the source text of argument [i] (hash argument [k]). *)
Definition raw_is (ctx : hctx) (i : nat) (s : str) : Prop := ctx_raw ctx i = Some (Some s).
Definition raw_param_is (ctx : hctx) (k : str) (s : str) : Prop := ctx_raw_param ctx k = Some (Some s).

(** ** The arguments of a call as its helper sees them *)
(** [args] are the values of the arguments of [c], [ms] the texts of those that have none *)
Definition sees_arguments (ctx : hctx) (src : str) (c : call) (args : list json) (ms : list (option str)) : Prop :=
  (* an argument with a value, null or not *)
  (forall i v, nth_error args i = Some v -> nth_error ms i = Some None ->
     ctx_get ctx i = Some v /\ ctx_missing ctx i = None /\ ctx_get_fallback ctx i = Some v)
  (* an argument without a value: null, and its source text as the fallback *)
  /\ (forall i t, nth_error ms i = Some (Some t) ->
     ctx_get ctx i = Some JNull /\ ctx_missing ctx i = Some (JStr t) /\ ctx_get_fallback ctx i = Some (JStr t))
  (* an argument that was not given *)
  /\ (forall i, length (c_args c) <= i ->
     ctx_get ctx i = None /\ ctx_missing ctx i = None /\ ctx_get_fallback ctx i = None /\ ctx_raw ctx i = Some None)
  (* the source text *)
  /\ (forall i a s, nth_error (c_args c) i = Some a -> param_str src a = Some s -> raw_is ctx i s).
(** the same for the hash arguments, listed in [order] with their values and texts *)
Definition sees_hash (ctx : hctx) (src : str) (order : list (str * param)) (vs : list json) (ms : list (option str)) : Prop :=
  (forall i k a, nth_error order i = Some (k, a) ->
     (forall v, nth_error vs i = Some v -> nth_error ms i = Some None ->
        ctx_param ctx k = Some v /\ ctx_missing_param ctx k = None /\ ctx_param_fallback ctx k = Some v)
     /\ (forall t, nth_error ms i = Some (Some t) ->
        ctx_param ctx k = Some JNull /\ ctx_missing_param ctx k = Some (JStr t) /\ ctx_param_fallback ctx k = Some (JStr t))
     /\ (forall s, param_str src a = Some s -> raw_param_is ctx k s))
  /\ (forall k, ~ In k (map fst order) ->
        ctx_param ctx k = None /\ ctx_missing_param ctx k = None /\ ctx_param_fallback ctx k = None /\ ctx_raw_param ctx k = Some None).

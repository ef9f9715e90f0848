(** * Spec_Blocks: the vocabulary of the block helper properties.  No proofs in this file. *)
From Coq Require Import String Sorting.Sorted.
From Verif Require Import Str Json Ast Parser Render Spec_Values.
Open Scope nat_scope. Open Scope list_scope.

(** ** else branches *)
(** a branch with a condition ([{{else if x}}]) and one without ([{{else}}]) *)
Definition conditional (n : node) (c : call) : Prop := exists b, n = NBlock b /\ b_call b = c /\ call_is_empty c = false.
Definition plain (n : node) : Prop := exists b, n = NBlock b /\ call_is_empty (b_call b) = true.
(** a condition holds when its call gives a value that is not falsy *)
Definition holds (v : option json) : Prop := exists w, v = Some w /\ ~ falsy w.
(** the conditions of [ns], evaluated in order from [st] to [s], all fail to hold *)
Inductive none_holds (ev : call -> M (option json)) : list node -> rst -> rst -> Prop :=
| nh_nil st : none_holds ev [] st st
| nh_skip n ns st s : (forall c, ~ conditional n c) -> none_holds ev ns st s -> none_holds ev (n :: ns) st s
| nh_cond n c ns st v s1 s : conditional n c -> ev c st = ROk v s1 -> ~ holds v -> none_holds ev ns s1 s -> none_holds ev (n :: ns) st s.
(** the last plain branch *)
Definition last_plain (ns : list node) (r : option node) : Prop :=
  (exists pre n post, ns = pre ++ n :: post /\ plain n /\ (forall m, In m post -> ~ plain m) /\ r = Some n)
  \/ (r = None /\ forall m, In m ns -> ~ plain m).
(** the selected branch: the first whose condition holds; if none holds, the last plain one *)
Definition selects (ev : call -> M (option json)) (ns : list node) (st : rst) (r : option node) (s : rst) : Prop :=
  (exists pre n c post mid v, ns = pre ++ n :: post /\ none_holds ev pre st mid /\ conditional n c /\ ev c mid = ROk v s /\ holds v /\ r = Some n)
  \/ (none_holds ev ns st s /\ last_plain ns r).
(** evaluating a condition fails *)
Definition select_fails (ev : call -> M (option json)) (ns : list node) (st : rst) (e : rerr) (s : rst) : Prop :=
  exists pre n c post mid, ns = pre ++ n :: post /\ none_holds ev pre st mid /\ conditional n c /\ ev c mid = RErr e s.
(** the else branches of a block, in source order *)
Definition branches (t : tpl) : list node := match tp_node t with NBlock b => b_conds b | _ => [] end.

(** ** Iterations *)
(** [body] runs once per scope, with that scope on top of the scopes of the caller *)
Inductive iterations (body : M unit) : list scope -> rst -> rst -> Prop :=
| iter_nil st : iterations body [] st st
| iter_cons sc scs st s1 s : body (up_scopes (sc :: r_scopes st) st) = ROk tt s1 ->
    iterations body scs (up_scopes (r_scopes st) s1) s -> iterations body (sc :: scs) st s.
(** the body fails in one of the iterations *)
Definition iteration_fails (body : M unit) (scs : list scope) (st : rst) (e : rerr) (s : rst) : Prop :=
  exists pre sc post mid, scs = pre ++ sc :: post /\ iterations body pre st mid /\ body (up_scopes (sc :: r_scopes mid) mid) = RErr e s.
(** the scope of element number [i] of [n] *)
Definition array_scope (n i : nat) (v : json) : scope :=
  mkScope (Some v) [(lit "@first", JBool (i =? 0)); (lit "@index", num_of_nat i); (lit "@last", JBool (S i =? n))].
Definition object_scope (n i : nat) (kv : str * json) : scope :=
  mkScope (Some (snd kv)) [(lit "@first", JBool (i =? 0)); (lit "@index", num_of_nat i); (lit "@key", JStr (fst kv)); (lit "@last", JBool (S i =? n))].
(** [f 0 x0; f 1 x1; ...] *)
Fixpoint number {A B} (f : nat -> A -> B) (i : nat) (l : list A) : list B :=
  match l with [] => [] | x :: l => f i x :: number f (S i) l end.
Definition array_scopes (l : list json) : list scope := number (array_scope (length l)) 0 l.
Definition object_scopes (l : list (str * json)) : list scope := number (object_scope (length l)) 0 l.
(** a JSON object: its keys in increasing order (serde_json's [Map] is a [BTreeMap]) *)
Definition key_sorted (l : list (str * json)) : Prop := Sorted.StronglySorted (fun a b => strcmp (fst a) (fst b) = Lt) l.

(** ** What a block helper does with its block [t] *)
Definition runs_body (h : helper) (ctx : hctx) (t : tpl) : Prop :=
  forall K en st, run K en (h ctx (Some t)) st = (template_ K en t ;; ret None) st.
(** nothing of the block itself, only the selected else branch, after evaluating the conditions *)
Definition runs_else (h : helper) (ctx : hctx) (t : tpl) : Prop :=
  forall K en st,
    (forall n s, selects (k_call K en (tp_src t)) (branches t) st (Some n) s ->
       run K en (h ctx (Some t)) st = (template_ K en (mkTpl (tp_src t) n) ;; ret None) s)
    /\ (forall s, selects (k_call K en (tp_src t)) (branches t) st None s -> run K en (h ctx (Some t)) st = ROk None s)
    /\ (forall e s, select_fails (k_call K en (tp_src t)) (branches t) st e s -> run K en (h ctx (Some t)) st = RErr e s).

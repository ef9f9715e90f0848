(** * Spec_Helpers: what calling a helper and looking up a variable mean; used by the theorems of
    Props_Values and Props_Render. *)
From Coq Require Import String.
From Verif Require Import Str Json Ast Parser Render Helpers Registry.
Open Scope nat_scope. Open Scope list_scope.

(** ** Helpers *)
(** [h] is the helper a new registry has under [name] *)
Definition builtin (pl : plat) (name : str) (h : helper) : Prop :=
  assoc name (rg_helpers (registry_new pl)) = Some h.
(** calling the helper, in any renderer state, gives this outcome and changes nothing: no output, no scopes *)
Definition returns (h : helper) (ctx : hctx) (t : option tpl) (v : option json) : Prop :=
  forall K en st, run K en (h ctx t) st = ROk v st.
Definition rejects (h : helper) (ctx : hctx) (t : option tpl) (e : rerr) : Prop :=
  forall K en st, run K en (h ctx t) st = RErr e st.
Definition panics (h : helper) (ctx : hctx) (t : option tpl) : Prop :=
  forall K en st, exists p, run K en (h ctx t) st = RPanic p.

(** ** Log records *)
(** the helper program emits exactly these log records, in this order, does nothing else, and returns [v] *)
Fixpoint logs (rs : list (log_level * str)) (v : option json) (p : hprog) : Prop :=
  match rs with
  | [] => p = HRet v
  | (lv, line) :: rs => exists k, p = HLog lv line k /\ logs rs v k
  end.
(** the level with this name; every other name means info *)
Definition level_named (s : str) (lv : log_level) : Prop :=
  (s = lit "error" /\ lv = LvError) \/ (s = lit "debug" /\ lv = LvDebug) \/ (s = lit "warn" /\ lv = LvWarn)
  \/ (s = lit "trace" /\ lv = LvTrace)
  \/ (~ In s [lit "error"; lit "debug"; lit "warn"; lit "trace"] /\ lv = LvInfo).
(** how an argument is logged: a string as it is, anything else as JSON *)
Inductive logged_as (fstr : spec_float -> str) : json -> str -> Prop :=
| logged_text s : logged_as fstr (JStr s) s
| logged_json v : (forall s, v <> JStr s) -> logged_as fstr v (to_string fstr v).
(** [s] is the parts, [sep] between each two of them *)
Inductive joined (sep : str) : list str -> str -> Prop :=
| joined_one x : joined sep [x] x
| joined_more x xs s : joined sep xs s -> joined sep (x :: xs) (x ++ sep ++ s).

(** ** Fields and paths *)
(** the value of a string of decimal digits *)
Definition decimal_value (s : str) : N := fold_left (fun a c => a * 10 + (c - 48))%N s 0%N.
Definition digit (c : chr) : Prop := (48 <= c <= 57)%N.
(** text that names an array index: digits, optionally after a plus sign, below 2^64 *)
Definition index_text (s : str) (i : nat) : Prop :=
  exists ds, (s = ds \/ s = 43%N :: ds) /\ ds <> [] /\ Forall digit ds
    /\ (decimal_value ds < 2 ^ 64)%N /\ i = N.to_nat (decimal_value ds).
(** the field [k] of a value: a member of an object, an element of an array *)
Inductive has_field : json -> str -> json -> Prop :=
| has_member pre k v post : ~ In k (map fst pre) -> has_field (JObj (pre ++ (k, v) :: post)) k v
| has_element l k i v : index_text k i -> nth_error l i = Some v -> has_field (JArr l) k v.
(** follow the parts of a (non-empty) path from a value *)
Inductive follow : json -> list str -> json -> Prop :=
| follow_one v k w : has_field v k w -> follow v [k] w
| follow_cons v k u ks w : has_field v k u -> follow u ks w -> follow v (k :: ks) w.

(** ** Variables *)
(** what a scope gives for a path: its own local variables first, then its base value *)
Definition in_locals (parts : list str) (s : scope) (w : json) : Prop := follow (JObj (sc_locals s)) parts w.
Definition in_base (parts : list str) (s : scope) (w : json) : Prop :=
  exists b, sc_value s = Some b /\ follow b parts w.
Definition scope_has (parts : list str) (s : scope) (w : json) : Prop :=
  in_locals parts s w \/ ((forall x, ~ in_locals parts s x) /\ in_base parts s w).
(** the variable seen from a stack of scopes, innermost first, above the render data *)
Inductive visible (parts : list str) (data : json) : list scope -> json -> Prop :=
| visible_data w : follow data parts w -> visible parts data [] w
| visible_here s ss w : scope_has parts s w -> visible parts data (s :: ss) w
| visible_outer s ss w : (forall x, ~ scope_has parts s x) -> visible parts data ss w -> visible parts data (s :: ss) w.
(** the base value of the innermost scope, or the render data *)
Inductive this_is (data : json) : list scope -> json -> Prop :=
| this_data : this_is data [] data
| this_scope s ss b : sc_value s = Some b -> this_is data (s :: ss) b
| this_unset s ss : sc_value s = None -> this_is data (s :: ss) data.
(** the level [n] scopes up: a scope, or the render data just above the outermost one *)
Definition at_level (parts : list str) (data : json) (ss : list scope) (n : nat) (w : json) : Prop :=
  (exists s, nth_error ss n = Some s /\ scope_has parts s w) \/ (n = length ss /\ follow data parts w).

(** looking up [p] in renderer state [st] finds exactly the values in [P] and leaves the state alone *)
Definition looks_up (en : env) (src : str) (p : path) (st : rst) (P : json -> Prop) : Prop :=
  exists r, mlookup en src p st = ROk r st /\ forall w, r = Some w <-> P w.

(** number of arguments of the builtin helpers *)
Definition arities : list (str * N * N) :=
  [(lit "if", 1, 1); (lit "unless", 1, 1); (lit "with", 1, 1); (lit "each", 1, 1); (lit "not", 1, 1); (lit "json", 1, 1);
   (lit "and", 2, 2); (lit "or", 2, 2); (lit "eq", 2, 2); (lit "ne", 2, 2); (lit "gt", 2, 2); (lit "gte", 2, 2);
   (lit "lt", 2, 2); (lit "lte", 2, 2); (lit "lookup", 2, 2); (lit "log", 1, 18446744073709551615)]%N.
Definition arity_error (name : str) (lo hi : N) : rerr :=
  if (lo =? hi)%N then EArityExact name lo else EArityRange name lo hi.
(** JSON types by name *)
Definition kind_name (v : json) : str :=
  match v with
  | JNull => lit "null" | JBool _ => lit "boolean" | JNum _ => lit "number" | JStr _ => lit "string"
  | JArr _ => lit "array" | JObj _ => lit "object"
  end.

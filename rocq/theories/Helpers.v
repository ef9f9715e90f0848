(** * Helpers: model of /repo/src/helper/*.rs, src/render/assert.rs, src/render/context.rs and
    src/escape.rs.  No proofs in this file. *)
From Coq Require Import String.
From Verif Require Import Str Json Ast Parser Render.
Open Scope nat_scope. Open Scope list_scope.

(** The [?] operator inside a helper. *)
Definition htry {A} (k : A -> hprog) (r : hres A) : hprog :=
  match r with HOk a => k a | HErr e => HFail e end.

(** ** src/render/assert.rs *)
(** src/render/assert.rs:6-20 [Type] *)
Inductive jtype := TyNull | TyBool | TyNumber | TyString | TyObject | TyArray.
(** src/render/assert.rs:37-48 [From<&Value> for Type] *)
Definition type_of (v : json) : jtype :=
  match v with
  | JNull => TyNull | JBool _ => TyBool | JNum _ => TyNumber | JStr _ => TyString
  | JObj _ => TyObject | JArr _ => TyArray
  end.
(** src/render/assert.rs:22-35 [Display for Type] *)
Definition type_str (t : jtype) : str :=
  match t with
  | TyNull => lit "null" | TyBool => lit "boolean" | TyNumber => lit "number"
  | TyString => lit "string" | TyObject => lit "object" | TyArray => lit "array"
  end.
(** src/render/assert.rs:65-74 [assert_type] *)
Definition assert_type (v : json) (k : jtype) : bool :=
  match v, k with
  | JNull, TyNull | JBool _, TyBool | JNum _, TyNumber | JStr _, TyString
  | JObj _, TyObject | JArr _, TyArray => true
  | _, _ => false
  end.
(** src/render/assert.rs:56-63 [assert]: [None] when the assertion holds, otherwise the failing type *)
Fixpoint assert_kinds (v : json) (kinds : list jtype) : option str :=
  match kinds with
  | [] => None
  | k :: ks => if assert_type v k then assert_kinds v ks else Some (type_str k)
  end.

(** src/render/mod.rs:402-420 [Render::try_evaluate], as a program on top of [rc.evaluate] *)
Definition try_evaluate (p : str) (kinds : list jtype) (k : hres json -> hprog) : hprog :=
  HEval p (fun r =>
    match r with
    | HErr e => k (HErr e)
    | HOk o =>
        let v := match o with Some v => v | None => JNull end in
        match assert_kinds v kinds with
        | Some kind => k (HErr (ETypeAssert p kind (type_str (type_of v))))
        | None => k (HOk v)
        end
    end).

(** ** src/render/context.rs *)
(** src/render/context.rs:275-289 [Context::assert] *)
Definition ctx_assert (c : hctx) (v : json) (kinds : list jtype) : hres unit :=
  match assert_kinds v kinds with
  | None => HOk tt
  | Some k => HErr (ETypeAssert (hc_name c) k (type_str (type_of v)))
  end.
(** src/render/context.rs:88-96 [get], [param] *)
Definition ctx_get (c : hctx) (i : nat) : option json := nth_error (hc_args c) i.
Definition ctx_param (c : hctx) (k : str) : option json := assoc k (hc_params c).
(** src/render/context.rs:195-205 [try_get], 210-220 [try_param], 224-231 [try_value] *)
Definition ctx_try_value (c : hctx) (v : json) (kinds : list jtype) : hres json :=
  match ctx_assert c v kinds with HOk _ => HOk v | HErr e => HErr e end.
Definition ctx_try_get (c : hctx) (i : nat) (kinds : list jtype) : hres json :=
  ctx_try_value c (match ctx_get c i with Some v => v | None => JNull end) kinds.
Definition ctx_try_param (c : hctx) (k : str) (kinds : list jtype) : hres json :=
  ctx_try_value c (match ctx_param c k with Some v => v | None => JNull end) kinds.
(** src/render/context.rs:135-160 [missing], [missing_param] *)
Fixpoint find_missing (i : nat) (l : list missing_value) : option json :=
  match l with
  | [] => None
  | MissArg j v :: l => if j =? i then Some v else find_missing i l
  | _ :: l => find_missing i l
  end.
Fixpoint find_missing_param (k : str) (l : list missing_value) : option json :=
  match l with
  | [] => None
  | MissParam j v :: l => if streq j k then Some v else find_missing_param k l
  | _ :: l => find_missing_param k l
  end.
Definition ctx_missing (c : hctx) (i : nat) : option json := find_missing i (hc_missing c).
Definition ctx_missing_param (c : hctx) (k : str) : option json := find_missing_param k (hc_missing c).
(** src/render/context.rs:104-132 [get_fallback], [param_fallback] *)
Definition ctx_get_fallback (c : hctx) (i : nat) : option json :=
  match ctx_get c i with
  | Some JNull => match ctx_missing c i with Some v => Some v | None => Some JNull end
  | v => v
  end.
Definition ctx_param_fallback (c : hctx) (k : str) : option json :=
  match ctx_param c k with
  | Some JNull => match ctx_missing_param c k with Some v => Some v | None => Some JNull end
  | v => v
  end.
(** src/render/context.rs:172-186 [raw], [raw_param]; outer [None] = slice panic *)
Definition ctx_raw (c : hctx) (i : nat) : option (option str) :=
  match nth_error (c_args (hc_call c)) i with
  | Some p => match param_str (hc_src c) p with Some s => Some (Some s) | None => None end
  | None => Some None
  end.
Definition ctx_raw_param (c : hctx) (k : str) : option (option str) :=
  match assoc k (c_params (hc_call c)) with
  | Some p => match param_str (hc_src c) p with Some s => Some (Some s) | None => None end
  | None => Some None
  end.
(** src/render/context.rs:248-272 [arity], on a range [lo..hi] *)
Definition ctx_arity (c : hctx) (lo hi : N) : hres unit :=
  let n := N.of_nat (length (hc_args c)) in
  if (lo =? hi)%N then
    if (n =? lo)%N then HOk tt else HErr (EArityExact (hc_name c) lo)
  else if ((n <? lo) || (hi <? n))%N then HErr (EArityRange (hc_name c) lo hi)
  else HOk tt.
(** src/render/context.rs:292-310 [assert_block], [assert_statement] *)
Definition ctx_assert_block (c : hctx) (t : option tpl) : hres tpl :=
  match t with Some t => HOk t | None => HErr (EBlockTemplate (hc_name c)) end.
Definition ctx_assert_statement (c : hctx) (t : option tpl) : hres unit :=
  match t with Some _ => HErr (EBlockTemplateNotAllowed (hc_name c)) | None => HOk tt end.

(** [ctx.arity(lo..hi)?; k] *)
Definition with_arity (c : hctx) (lo hi : N) (k : hprog) : hprog := htry (fun _ => k) (ctx_arity c lo hi).
(** [ctx.get(i).unwrap()] *)
Definition with_arg (c : hctx) (i : nat) (k : json -> hprog) : hprog :=
  match ctx_get c i with Some v => k v | None => HPanic end.

(** ** Block helpers *)
(** src/helper/if.rs:13-41 [If] *)
Definition if_helper : helper := fun c t =>
  with_arity c 1 1 (with_arg c 0 (fun v =>
    match t with
    | Some t =>
        if is_truthy v then HTemplate t (htry (fun _ => HRet None))
        else HInverse t (htry (fun n =>
               match n with
               | Some n => HTemplate n (htry (fun _ => HRet None))
               | None => HRet None
               end))
    | None => HRet (Some (JBool (is_truthy v)))
    end)).

(** src/helper/unless.rs:9-33 [Unless] *)
Definition unless_helper : helper := fun c t =>
  with_arity c 1 1
    (match t with
     | Some t =>
         with_arg c 0 (fun v =>
           if negb (is_truthy v) then HTemplate t (htry (fun _ => HRet None))
           else HInverse t (htry (fun n =>
                  match n with
                  | Some n => HTemplate n (htry (fun _ => HRet None))
                  | None => HRet None
                  end)))
     | None => HRet None
     end).

(** src/helper/with.rs:11-38 [With] *)
Definition with_helper : helper := fun c t =>
  with_arity c 1 1
    (match ctx_get c 0 with
     | Some JNull | None => HRet None
     | Some v =>
         match t with
         | Some t =>
             HPushScope scope_new
               (HScopeMut (set_base_value v)
                  (HTemplate t (htry (fun _ => HPopScope (fun _ => HRet None)))))
         | None => HRet None
         end
     end).

(** src/helper/each.rs:18-99 [Each]; loop bodies 41-58 (objects) and 62-75 (arrays) *)
Definition each_locals (first last : bool) (index : nat) (key : option str) (v : json) (s : scope) : scope :=
  let s := set_local (lit "first") (JBool first) s in
  let s := set_local (lit "last") (JBool last) s in
  let s := set_local (lit "index") (num_of_nat index) s in
  let s := match key with Some k => set_local (lit "key") (JStr k) s | None => s end in
  set_base_value v s.
Fixpoint each_obj (t : tpl) (index : nat) (l : list (str * json)) (k : hprog) : hprog :=
  match l with
  | [] => k
  | (key, v) :: l' =>
      HScopeMut (each_locals (index =? 0) (match l' with [] => true | _ => false end) index (Some key) v)
        (HTemplate t (htry (fun _ => each_obj t (S index) l' k)))
  end.
Fixpoint each_arr (t : tpl) (len index : nat) (l : list json) (k : hprog) : hprog :=
  match l with
  | [] => k
  | v :: l' =>
      HScopeMut (each_locals (index =? 0) (index =? len - 1) index None v)
        (HTemplate t (htry (fun _ => each_arr t len (S index) l' k)))
  end.
Definition each_helper : helper := fun c t =>
  with_arity c 1 1
    (match t with
     | Some t =>
         with_arg c 0 (fun v =>
           HPushScope scope_new
             (let k := HPopScope (fun _ => HRet None) in
              match v with
              | JObj l => each_obj t 0 l k
              | JArr l => each_arr t (length l) 0 l k
              | _ => k
              end))
     | None => HRet None
     end).

(** ** Value helpers *)
(** src/helper/comparison.rs:16-38 [cmp]; [Number::as_f64] is never [None] here *)
Definition cmp_helper (op : spec_float -> spec_float -> bool) : helper := fun c _ =>
  with_arity c 2 2
    (htry (fun l => htry (fun r =>
        match l, r with
        | JNum a, JNum b => HRet (Some (JBool (op (as_f64 a) (as_f64 b))))
        | _, _ => HFail (EInvalidNumericalOperand (hc_name c))
        end) (ctx_try_get c 1 [TyNumber])) (ctx_try_get c 0 [TyNumber])).
(** src/helper/comparison.rs:41-121 *)
Definition eq_helper := cmp_helper (fun a b => SFeqb a b).
Definition ne_helper := cmp_helper (fun a b => negb (SFeqb a b)).
Definition gt_helper := cmp_helper (fun a b => SFltb b a).
Definition gte_helper := cmp_helper (fun a b => SFleb b a).
Definition lt_helper := cmp_helper (fun a b => SFltb a b).
Definition lte_helper := cmp_helper (fun a b => SFleb a b).

(** src/helper/logical.rs *)
Definition and_helper : helper := fun c _ =>
  with_arity c 2 2 (with_arg c 0 (fun a => with_arg c 1 (fun b =>
    HRet (Some (JBool (is_truthy a && is_truthy b)))))).
Definition or_helper : helper := fun c _ =>
  with_arity c 2 2 (with_arg c 0 (fun a => with_arg c 1 (fun b =>
    HRet (Some (JBool (is_truthy a || is_truthy b)))))).
Definition not_helper : helper := fun c _ =>
  with_arity c 1 1 (with_arg c 0 (fun a => HRet (Some (JBool (negb (is_truthy a)))))).

(** src/helper/lookup.rs:12-39 [Lookup]: [try_get(..).unwrap()] panics on a non-string *)
Definition lookup_helper : helper := fun c _ =>
  with_arity c 2 2 (with_arg c 0 (fun target =>
    match ctx_try_get c 1 [TyString] with
    | HOk (JStr field) =>
        match find_field target field with
        | Some v => HRet (Some v)
        | None => HFail (ELookupField (hc_name c) field)
        end
    | _ => HPanic
    end)).

(** src/helper/json.rs:13-38 [Json] *)
Definition json_helper (fstr : spec_float -> str) : helper := fun c _ =>
  with_arity c 1 1 (with_arg c 0 (fun v =>
    let pretty := is_truthy (match ctx_param c (lit "pretty") with Some v => v | None => JBool false end) in
    HRet (Some (JStr (if pretty then to_pretty fstr 0 v else to_string fstr v))))).

(** [message.split("\n")], src/helper/log.rs:50; always at least one line *)
Fixpoint split_lines (s : str) : list str :=
  match s with
  | [] => [[]]
  | c :: s =>
      if (c =? 10)%N then [] :: split_lines s
      else match split_lines s with l :: ls => (c :: l) :: ls | [] => [[c]] end
  end.
(** src/helper/log.rs:52-58, the macro for a level name *)
Definition level_of (s : str) : log_level :=
  if streq s (lit "error") then LvError
  else if streq s (lit "debug") then LvDebug
  else if streq s (lit "warn") then LvWarn
  else if streq s (lit "trace") then LvTrace
  else LvInfo.
Fixpoint log_lines (lv : log_level) (ls : list str) (k : hprog) : hprog :=
  match ls with [] => k | l :: ls => HLog lv l (log_lines lv ls k) end.
(** src/helper/log.rs:15-64 [Log] *)
Definition log_helper (fstr : spec_float -> str) : helper := fun c _ =>
  with_arity c 1 18446744073709551615
    (let message := join (lit " ") (map (unquote fstr) (hc_args c)) in
     match ctx_param c (lit "level") with
     | None => log_lines (level_of (lit "info")) (split_lines message) (HRet None)
     | Some (JStr level) => log_lines (level_of level) (split_lines message) (HRet None)
     | Some _ => HPanic
     end).

(** src/helper/mod.rs:196-238 [builtins] (all helper features on) *)
Definition builtins (fstr : spec_float -> str) : list (str * helper) :=
  [(lit "if", if_helper); (lit "unless", unless_helper);
   (lit "eq", eq_helper); (lit "ne", ne_helper); (lit "gt", gt_helper); (lit "gte", gte_helper);
   (lit "lt", lt_helper); (lit "lte", lte_helper); (lit "log", log_helper fstr); (lit "lookup", lookup_helper);
   (lit "and", and_helper); (lit "or", or_helper); (lit "not", not_helper);
   (lit "with", with_helper); (lit "each", each_helper); (lit "json", json_helper fstr)].

(** ** src/escape.rs *)
(** src/escape.rs:9-22 [html] *)
Definition html_c (c : chr) : str :=
  if (c =? 60)%N then lit "&lt;"
  else if (c =? 62)%N then lit "&gt;"
  else if (c =? 34)%N then lit "&quot;"
  else if (c =? 38)%N then lit "&amp;"
  else if (c =? 39)%N then lit "&#x27;"
  else [c].
Definition html (s : str) : str := flat_map html_c s.
(** src/escape.rs:25-27 [noop] *)
Definition noop (s : str) : str := s.

(** * Spec_Session: what the operations of the render context do for a helper (C75).  No proofs in this file. *)
From Coq Require Import String.
From Verif Require Import Str Json Ast Parser Render Helpers Spec_Values Spec_Source Spec_Sem Spec_Fail.
Open Scope nat_scope. Open Scope list_scope.

(** What a helper's requests change: the scopes (innermost first), the helpers registered for this render,
    the texts handed to the writer so far. *)
Record view := mkView { vw_scopes : list scope; vw_locals : str -> option helper; vw_out : list str }.
(** how a helper ends: with a value (or none), or with an error or panic *)
Inductive ending := Gives (v : option json) | Stops (s : stop).

(** what the writer gets of a stripped text *)
Definition sent (en : env) (esc : bool) (y : str) : str := if esc then rg_escape (en_reg en) y else y.
(** [session en cur s e v p v' r]: in a render with the fixed data [en] (registry, root data, name, writer), while the template named [cur]
    is rendered and the neighbours' [~] strip the start ([s]) and the end ([e]) of what is written, the helper program [p] started at
    [v] ends at [v'] with [r].  Programs that render templates are not covered. *)
Inductive session (en : env) (cur : str) (s e : bool) : view -> hprog -> view -> ending -> Prop :=
| se_gives v x : session en cur s e v (HRet x) v (Gives x)
| se_fails v err : session en cur s e v (HFail err) v (Stops (Fails err))
| se_panics v : session en cur s e v HPanic v (Stops Panics)
(** rc.write, rc.write_escaped: the text is stripped, then escaped, then handed to the writer, unless there is nothing left of it *)
| se_write_nothing v x esc k v' r : stripped s e x [] -> session en cur s e v (k (HOk 0)) v' r ->
    session en cur s e v (HWrite x esc k) v' r
| se_write scs loc out x esc k y n v' r : stripped s e x y -> y <> [] ->
    en_write en out (sent en esc y) = WOk n ->
    session en cur s e (mkView scs loc (out ++ [sent en esc y])) (k (HOk n)) v' r -> session en cur s e (mkView scs loc out) (HWrite x esc k) v' r
| se_write_error scs loc out x esc k y kd v' r : stripped s e x y -> y <> [] ->
    en_write en out (sent en esc y) = WErr kd ->
    session en cur s e (mkView scs loc (out ++ [sent en esc y])) (k (HErr (EIo kd))) v' r -> session en cur s e (mkView scs loc out) (HWrite x esc k) v' r
(** rc.out(): the writer itself *)
| se_out scs loc out x k n v' r : en_write en out x = WOk n ->
    session en cur s e (mkView scs loc (out ++ [x])) (k (HOk n)) v' r -> session en cur s e (mkView scs loc out) (HOut x k) v' r
| se_out_error scs loc out x k kd v' r : en_write en out x = WErr kd ->
    session en cur s e (mkView scs loc (out ++ [x])) (k (HErr (EIo kd))) v' r -> session en cur s e (mkView scs loc out) (HOut x k) v' r
(** scopes: a stack *)
| se_push scs loc out sc k v' r : session en cur s e (mkView (sc :: scs) loc out) k v' r ->
    session en cur s e (mkView scs loc out) (HPushScope sc k) v' r
| se_pop sc scs loc out k v' r : session en cur s e (mkView scs loc out) (k (Some sc)) v' r ->
    session en cur s e (mkView (sc :: scs) loc out) (HPopScope k) v' r
| se_pop_none loc out k v' r : session en cur s e (mkView [] loc out) (k None) v' r ->
    session en cur s e (mkView [] loc out) (HPopScope k) v' r
| se_mut sc scs loc out g k v' r : session en cur s e (mkView (g sc :: scs) loc out) k v' r ->
    session en cur s e (mkView (sc :: scs) loc out) (HScopeMut g k) v' r
| se_mut_none loc out g k v' r : session en cur s e (mkView [] loc out) k v' r ->
    session en cur s e (mkView [] loc out) (HScopeMut g k) v' r
(** rc.evaluate of the text of a path: its value in the scopes there are at that moment *)
| se_eval v h t k x v' r : arg_head_ok h -> tail_ok t -> path_value (en_root en) (vw_scopes v) h t x ->
    session en cur s e v (k (HOk (Some x))) v' r -> session en cur s e v (HEval (path_text h t) k) v' r
| se_eval_none v h t k v' r : arg_head_ok h -> tail_ok t -> no_value (en_root en) (vw_scopes v) h t ->
    session en cur s e v (k (HOk None)) v' r -> session en cur s e v (HEval (path_text h t) k) v' r
(** local helpers *)
| se_register scs loc loc' out n h k v' r : loc' n = Some h -> (forall m, m <> n -> loc' m = loc m) ->
    session en cur s e (mkView scs loc' out) k v' r -> session en cur s e (mkView scs loc out) (HRegister n h k) v' r
| se_unregister scs loc loc' out n k v' r : loc' n = None -> (forall m, m <> n -> loc' m = loc m) ->
    session en cur s e (mkView scs loc' out) k v' r -> session en cur s e (mkView scs loc out) (HUnregister n k) v' r
(** the registry, the data, the names *)
| se_template v n te k v' r : assoc n (rg_templates (en_reg en)) = Some te ->
    session en cur s e v (k (Some (te_tpl te))) v' r -> session en cur s e v (HGetTemplate n k) v' r
| se_no_template v n k v' r : assoc n (rg_templates (en_reg en)) = None ->
    session en cur s e v (k None) v' r -> session en cur s e v (HGetTemplate n k) v' r
| se_data v k v' r : session en cur s e v (k (en_root en)) v' r -> session en cur s e v (HData k) v' r
| se_names v k v' r : session en cur s e v (k (en_name en) cur) v' r -> session en cur s e v (HNames k) v' r
| se_escape v x k v' r : session en cur s e v (k (rg_escape (en_reg en) x)) v' r -> session en cur s e v (HEscape x k) v' r
| se_log v lv line k v' r : session en cur s e v k v' r -> session en cur s e v (HLog lv line k) v' r.

(** The renderer is at [v]. *)
Definition is_at (en : env) (cur : str) (s e : bool) (v : view) (st : rst) : Prop :=
  r_scopes st = vw_scopes v /\ (forall n, assoc n (r_local st) = vw_locals v n) /\ r_out st = vw_out v
  /\ current_name en st = cur /\ r_trim st = mkTrim s e.
(** nothing else has changed *)
Definition same_rest (st st' : rst) : Prop :=
  r_partials st' = r_partials st /\ r_hint st' = r_hint st /\ r_end st' = r_end st /\ r_stack st' = r_stack st /\ r_names st' = r_names st
  /\ r_trim st' = r_trim st.

(** [amounts w base scs p q]: a program that pushes and pops scopes, evaluates paths, looks at the data and escapes texts while it works out
    what to write and which value to give, hands on the errors of the writer, and leaves the scopes as it found them ([base]) whenever it
    writes and at its end, amounts to the plain program [q] of the writes and the value. *)
Inductive amounts (w : world) (base : list scope) : list scope -> hprog -> hprog -> Prop :=
| am_value v : amounts w base base (HRet v) (HRet v)
| am_fails err : amounts w base base (HFail err) (HFail err)
| am_panics scs : amounts w base scs HPanic HPanic
| am_write x esc k p q : (forall n, k (HOk n) = p) -> (forall err, k (HErr err) = HFail err) -> amounts w base base p q ->
    amounts w base base (HWrite x esc k) (HWrite x esc (htry (fun _ => q)))
| am_push scs sc k q : amounts w base (sc :: scs) k q -> amounts w base scs (HPushScope sc k) q
| am_pop sc scs k q : amounts w base scs (k (Some sc)) q -> amounts w base (sc :: scs) (HPopScope k) q
| am_mut sc scs g k q : amounts w base (g sc :: scs) k q -> amounts w base (sc :: scs) (HScopeMut g k) q
| am_eval scs h t k x q : arg_head_ok h -> tail_ok t -> path_value (w_data w) scs h t x ->
    amounts w base scs (k (HOk (Some x))) q -> amounts w base scs (HEval (path_text h t) k) q
| am_eval_none scs h t k q : arg_head_ok h -> tail_ok t -> no_value (w_data w) scs h t ->
    amounts w base scs (k (HOk None)) q -> amounts w base scs (HEval (path_text h t) k) q
| am_data scs k q : amounts w base scs (k (w_data w)) q -> amounts w base scs (HData k) q
| am_escape scs x k q : amounts w base scs (k (rg_escape (w_reg w) x)) q -> amounts w base scs (HEscape x k) q
| am_log scs lv line k q : amounts w base scs k q -> amounts w base scs (HLog lv line k) q.

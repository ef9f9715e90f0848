(** * Spec_Offset: the same template, [k] lines further down (C77).  No proofs in this file. *)
From Verif Require Import Str Json Ast ErrInfo Parser.
Open Scope nat_scope. Open Scope list_scope.

(** ** Every line number plus [k], everything else unchanged *)
Definition lower (k : nat) (l : span) : span := (fst l + k, snd l + k).
(** The path that stands for the missing name of [{{else}}] has no lines: its range is empty, and stays so. *)
Definition lower_path (k : nat) (p : path) : path :=
  mkPath (pa_comps p) (pa_parents p) (pa_explicit p) (pa_root p) (pa_span p)
    (if snd (pa_line p) =? 0 then pa_line p else lower k (pa_line p)) (pa_absolute p).
Fixpoint lower_call (k : nat) (c : call) : call :=
  let 'mkCall p q o cl t a h l := c in
  mkCall p q o cl (lower_target k t) (map (lower_param k) a) (map (fun kv : str * param => let (x, v) := kv in (x, lower_param k v)) h) (lower k l)
with lower_target (k : nat) (t : target) : target :=
  match t with TPath p => TPath (lower_path k p) | TSub c => TSub (lower_call k c) end
with lower_param (k : nat) (v : param) : param :=
  match v with VPath p => VPath (lower_path k p) | VJson j sp l => VJson j sp (lower k l) | VSub c => VSub (lower_call k c) end.
Definition lower_text (k : nat) (t : text) : text := mkText (tx_span t) (lower k (tx_line t)).
Definition lower_text_block (k : nat) (t : text_block) : text_block := mkTextBlock (lower_text k (tb_text t)) (tb_open t) (tb_close t).
Definition lower_link (k : nat) (l : link) : link :=
  mkLink (lk_open l) (lk_close l) (lower k (lk_line l)) (lk_href_span l) (lk_label_span l) (lk_title_span l) (lk_href l) (lk_label l) (lk_title l).
Fixpoint lower_node (k : nat) (n : node) : node :=
  match n with
  | NDoc ns => NDoc (map (lower_node k) ns)
  | NText t => NText (lower_text k t)
  | NStmt c => NStmt (lower_call k c)
  | NBlock b => NBlock (lower_block k b)
  | NRawStmt t => NRawStmt (lower_text_block k t)
  | NRawComment t => NRawComment (lower_text_block k t)
  | NComment t => NComment (lower_text_block k t)
  | NLink l => NLink (lower_link k l)
  end
with lower_block (k : nat) (b : block) : block :=
  let 'mkBlock ns r o cl c cs l := b in
  mkBlock (map (lower_node k) ns) r o cl (lower_call k c) (map (lower_node k) cs) (lower k l).

(** the same error for the same byte, with the same notes, [k] lines further down *)
Definition lower_error (w : chr -> nat) (file src : str) (k : nat) (e f : syntax_error) : Prop :=
  exists line byte notes, err_info w file src line byte notes = Some (se_info e) /\ err_info w file src (line + k) byte notes = Some (se_info f).

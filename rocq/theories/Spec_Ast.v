(** * Spec_Ast: what the spans, tags and blocks of a syntax tree are; used by the theorems about
    src/parser (C05-C17).  Only traversals and predicates; nothing here parses. *)
From Coq Require Import String.
From Verif Require Import Str Lexer Json Ast.
Open Scope nat_scope. Open Scope list_scope.

(** A byte offset on a character boundary of the source. *)
Definition boundary (src : str) (n : nat) : Prop := exists p q, src = p ++ q /\ blen p = n.
(** A span that can be read back from the source: ordered, inside, on character boundaries. *)
Definition valid_span (src : str) (s : span) : Prop :=
  boundary src (fst s) /\ boundary src (snd s) /\ fst s <= snd s.

Definition opt_list {A} (o : option A) : list A := match o with Some x => [x] | None => [] end.

(** Every span recorded in a path, call, parameter. *)
Definition path_spans (p : path) : list span := pa_span p :: map cm_span (pa_comps p).
Fixpoint call_spans (c : call) : list span :=
  match c with
  | mkCall _ _ open close tgt args params _ =>
      open :: opt_list close ++ target_spans tgt
        ++ flat_map param_spans args ++ flat_map (fun kv => param_spans (snd kv)) params
  end
with target_spans (t : target) : list span :=
  match t with TPath p => path_spans p | TSub c => call_spans c end
with param_spans (v : param) : list span :=
  match v with VPath p => path_spans p | VJson _ sp _ => [sp] | VSub c => call_spans c end.

(** Every (open tag, close tag) pair of a call and the calls inside it. *)
Definition tag_pair (o : span) (c : option span) : list (span * span) :=
  match c with Some c => [(o, c)] | None => [] end.
Fixpoint call_tags (c : call) : list (span * span) :=
  match c with
  | mkCall _ _ open close tgt args params _ =>
      tag_pair open close ++ target_tags tgt
        ++ flat_map param_tags args ++ flat_map (fun kv => param_tags (snd kv)) params
  end
with target_tags (t : target) : list (span * span) :=
  match t with TPath _ => [] | TSub c => call_tags c end
with param_tags (v : param) : list (span * span) :=
  match v with VSub c => call_tags c | _ => [] end.

Definition link_spans (l : link) : list span :=
  lk_open l :: opt_list (lk_close l) ++ [lk_href_span l].
(** The label and title of a link. *)
Definition link_part_spans (n : node) : list span :=
  match n with NLink l => [lk_label_span l; lk_title_span l] | _ => [] end.

(** Every block of a tree, outermost first; the flag tells an {{else}} branch of a block (stored by the
    parser as a block in [b_conds]) from a block proper. *)
Fixpoint node_blocks (branch : bool) (n : node) : list (bool * block) :=
  match n with
  | NDoc l => flat_map (node_blocks false) l
  | NBlock b => block_blocks branch b
  | _ => []
  end
with block_blocks (branch : bool) (b : block) : list (bool * block) :=
  match b with
  | mkBlock nodes _ _ _ _ conds _ =>
      (branch, b) :: flat_map (node_blocks false) nodes ++ flat_map (node_blocks true) conds
  end.

(** Every node that is not a document or block. *)
Fixpoint node_leaves (n : node) : list node :=
  match n with
  | NDoc l => flat_map node_leaves l
  | NBlock b => block_leaves b
  | _ => [n]
  end
with block_leaves (b : block) : list node :=
  match b with
  | mkBlock nodes _ _ _ _ conds _ => flat_map node_leaves nodes ++ flat_map node_leaves conds
  end.

Definition text_block_spans (t : text_block) : list span := [tx_span (tb_text t); tb_open t; tb_close t].
Definition leaf_spans (n : node) : list span :=
  match n with
  | NText t => [tx_span t]
  | NStmt c => call_spans c
  | NRawStmt t | NRawComment t | NComment t => text_block_spans t
  | NLink l => link_spans l
  | NDoc _ | NBlock _ => []
  end.
Definition leaf_tags (n : node) : list (span * span) :=
  match n with
  | NText _ | NDoc _ | NBlock _ => []
  | NStmt c => call_tags c
  | NRawStmt t | NRawComment t | NComment t => [(tb_open t, tb_close t)]
  | NLink l => tag_pair (lk_open l) (lk_close l)
  end.

(** All spans of a tree except the close spans of {{else}} branches and the label and title of links. *)
Definition block_own_spans (fb : bool * block) : list span :=
  b_open (snd fb) :: call_spans (b_call (snd fb)) ++ (if fst fb then [] else opt_list (b_close (snd fb))).
Definition tree_spans (n : node) : list span :=
  flat_map leaf_spans (node_leaves n) ++ flat_map block_own_spans (node_blocks false n).
(** The close spans of the {{else}} branches. *)
Definition branch_close_spans (n : node) : list span :=
  flat_map (fun fb : bool * block => if fst fb then opt_list (b_close (snd fb)) else []) (node_blocks false n).
(** The label and title spans of the links of a tree. *)
Definition link_label_spans (n : node) : list span := flat_map link_part_spans (node_leaves n).
(** All (open, close) tag pairs of a tree. *)
Definition tree_tags (n : node) : list (span * span) :=
  flat_map leaf_tags (node_leaves n)
    ++ flat_map (fun fb : bool * block => tag_pair (b_open (snd fb)) (b_close (snd fb)) ++ call_tags (b_call (snd fb)))
         (node_blocks false n).

(** ** The piece of the source a node occupies *)
Definition node_start (n : node) : nat :=
  match n with
  | NDoc _ => 0
  | NText t => fst (tx_span t)
  | NStmt c => fst (c_open c)
  | NBlock b => fst (b_open b)
  | NRawStmt t | NRawComment t | NComment t => fst (tb_open t)
  | NLink l => fst (lk_open l)
  end.
(** A closing tag of which only the opener, which ends in a slash, was recorded: the parser accepted it without
    reading its terminator. *)
Definition unterminated (src : str) (cl : span) : bool :=
  match sl src cl with Some s => ends_with [47%N] s | None => false end.
(** The end of a node; [None] for a tag the parser accepted without reading its terminator. *)
Definition node_end (src : str) (n : node) : option nat :=
  match n with
  | NDoc _ => None
  | NText t => Some (snd (tx_span t))
  | NStmt c => option_map snd (c_close c)
  | NBlock b => match b_close b with
                | Some cl => if unterminated src cl then None else Some (snd cl)
                | None => None
                end
  | NRawStmt t | NRawComment t | NComment t => Some (snd (tb_close t))
  | NLink l => option_map snd (lk_close l)
  end.

(** Nodes that follow each other without gaps from byte [p] to byte [q].  Only a tag that was accepted
    without its terminator may be followed by a gap. *)
Fixpoint nodes_tile (src : str) (p q : nat) (l : list node) : Prop :=
  match l with
  | [] => p = q
  | n :: l' => node_start n = p
      /\ match node_end src n with
         | Some e => p < e /\ nodes_tile src e q l'
         | None => exists e, p < e /\ nodes_tile src e q l'
         end
  end.

(** ** Blocks and their else branches *)
Definition is_else (n : node) : bool := match n with NStmt c => c_conditional c | _ => false end.
(** Split the direct children of a block at its {{else}} statements: the body and, per statement, the nodes
    after it. *)
Fixpoint split_else (items : list node) : list node * list (node * list node) :=
  match items with
  | [] => ([], [])
  | x :: l =>
      let (body, branches) := split_else l in
      if is_else x then ([], (x, body) :: branches) else (x :: body, branches)
  end.
Definition branch_view (n : node) : node * list node :=
  match n with NBlock b => (NStmt (b_call b), b_nodes b) | _ => (n, []) end.
Definition is_plain_branch (n : node) : Prop :=
  match n with NBlock b => b_conds b = [] /\ b_raw b = false /\ b_open b = c_open (b_call b) | _ => False end.

(** [items] are the direct children of [b], in source order and filling the whole space between its opening
    tag and its closing tag. *)
Definition block_children (src : str) (b : block) (items : list node) : Prop :=
  (b_nodes b, map branch_view (b_conds b)) = split_else items
  /\ Forall is_plain_branch (b_conds b)
  /\ exists s cl, b_close b = Some cl
      /\ match c_close (b_call b) with Some e => s = snd e | None => snd (b_open b) <= s end
      /\ nodes_tile src s (fst cl) items.

(** ** Names of tags: the first identifier token after a tag opener of kind [k] at byte [at_]. *)
Definition tag_named (src : str) (toks : list token) (k : tblock) (at_ : nat) (name : str) : Prop :=
  exists l1 o mid t l2, toks = l1 ++ o :: mid ++ t :: l2
    /\ t_kind o = TBlock k /\ t_start o = at_
    /\ Forall (fun u => t_kind u <> TParam KIdent) mid
    /\ t_kind t = TParam KIdent /\ slice src (t_start t) (t_end t) = Some name.

(** ** Raw blocks: one piece of text between the tags *)
Definition raw_children (b : block) : Prop :=
  exists tx e cl, b_nodes b = [NText tx] /\ b_conds b = [] /\ c_close (b_call b) = Some e /\ b_close b = Some cl
    /\ tx_span tx = (snd e, fst cl).

(** ** Lines *)
Definition node_lines (n : node) : span :=
  match n with
  | NDoc _ => (0, 0)
  | NText t => tx_line t
  | NStmt c => c_line c
  | NBlock b => b_line b
  | NRawStmt t | NRawComment t | NComment t => tx_line (tb_text t)
  | NLink l => lk_line l
  end.
(** number of newline characters of [s] at byte offsets below [q]; [p] is the offset of [s] *)
Fixpoint newlines_before (p : nat) (s : str) (q : nat) : nat :=
  match s with
  | [] => 0
  | c :: s' => (if (c =? 10)%N && (p <? q) then 1 else 0) + newlines_before (p + clen c) s' q
  end.

(** Newlines the line counter is known to miss: those inside links, and those inside a tag between a [../] or a
    path delimiter and the next path component. *)
Definition uncounted_newline (toks : list token) : Prop :=
  (exists t, In t toks /\ match t_kind t with TLink _ => True | _ => False end)
  \/ exists a t mid u b, toks = a ++ t :: mid ++ u :: b
       /\ (t_kind t = TParam KParentRef \/ t_kind t = TParam KPathDelim)
       /\ Forall (fun x => match t_kind x with
            | TParam (KThis | KThisDotSlash | KParentRef | KIdent | KLocalIdent | KPathDelim | KStartArray
                     | KSingleQuote | KDoubleQuote) => False
            | TParam _ => True
            | _ => False
            end) mid
       /\ t_kind u = TParam KNewline.

(** ** Error reports *)
(** the line [text] is the line of the source [s] that contains the byte [byte], which is its character
    number [col] (from 1); all characters of [s] are ASCII, so bytes and characters agree.  The line is not the
    one directly after a newline that is the first character of the source. *)
Definition line_at (s : str) (byte col : nat) (text : str) : Prop :=
  exists before l1 c l2 after, s = before ++ text ++ after /\ text = l1 ++ c :: l2
    /\ byte = length before + length l1 /\ col = length l1 + 1
    /\ ~ In 10%N text
    /\ (before = [] \/ exists x, x <> [] /\ before = x ++ [10%N])
    /\ (after = [] \/ exists y, after = 10%N :: y)
    /\ Forall (fun c => (c < 128)%N) s.
(** the layout of a report: position line, gap line, the quoted line, the caret line *)
Definition report_lines (file : str) (line col : nat) (text : str) (notes : str) : str :=
  let number := nat_str (line + 1) in
  let pad := repeat_c 32%N (length number + 1) in
  pad ++ lit "--> " ++ file ++ lit ":" ++ number ++ lit ":" ++ nat_str col ++ [10%N]
  ++ pad ++ lit " |" ++ [10%N]
  ++ lit " " ++ number ++ lit " | " ++ text ++ [10%N]
  ++ pad ++ lit " | " ++ repeat_c 45%N (col - 1) ++ lit "^" ++ notes.

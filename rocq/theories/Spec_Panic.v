(** * Spec_Panic: sources, templates and helpers that give rendering no reason to panic (C53). *)
From Coq Require Import String.
From Verif Require Import Str Lexer Json Ast ErrInfo Parser Spec_Ast Render Spec_Source.
Open Scope nat_scope. Open Scope list_scope.

Definition ascii (s : str) : Prop := Forall (fun c => (c < 128)%N) s.

(** A link handler is called for the links of a template. *)
Definition link_handler (pl : plat) (reg : registry) : Prop := pl_links pl = true /\ rg_link reg <> None.

(** The markup a compiled template still reads while it is rendered is readable: the trim marks of every closing
    tag (also those of the [else] branches), and, when a link handler will be called, the label and title of
    every link that is not escaped. *)
Definition readable (pl : plat) (reg : registry) (src : str) (n : node) : Prop :=
  (forall f b, In (f, b) (node_blocks false n) -> block_trim_close src b <> None)
  /\ (link_handler pl reg -> forall l, In (NLink l) (node_leaves n) -> link_is_escaped src l = Some false ->
        link_label src l <> None /\ link_title src l <> None).
(** A template made by the parser, and readable. *)
Definition good_template (pl : plat) (reg : registry) (t : template) : Prop :=
  (exists o fs, compile (pl_penv pl) o (te_src t) = POk (te_node t) fs) /\ readable pl reg (te_src t) (te_node t).
Definition good_templates (pl : plat) (reg : registry) : Prop :=
  forall name t, In (name, t) (rg_templates reg) -> good_template pl reg t.

(** Two kinds of source whose templates are readable: ASCII text (without links if a link handler is set), and the
    documents of the grammar of [Spec_Source], however they are laid out. *)
Definition sound_source (pl : plat) (reg : registry) (s : str) : Prop :=
  (ascii s /\ (link_handler pl reg -> ~ occurs (lit "[[") s))
  \/ exists d, doc_ok (pl_penv pl) d /\ doc_writes Loose d s.

(** ** Helpers *)
Definition all_opt {A} (P : A -> Prop) (o : option A) : Prop := match o with Some x => P x | None => True end.
(** The nodes directly inside a node. *)
Definition inside (n : node) : list node :=
  match n with NDoc ns => ns | NBlock b => b_nodes b ++ b_conds b | _ => [] end.
(** [P] holds of every template a helper can have got hold of: the parts of those it was handed, and what the
    registry compiles from sound sources. *)
Definition handed (pl : plat) (reg : registry) (P : tpl -> Prop) : Prop :=
  (forall src n m, P (mkTpl src n) -> In m (inside n) -> P (mkTpl src m))
  /\ (forall o s n fs, sound_source pl reg s -> compile (pl_penv pl) o s = POk n fs -> P (mkTpl s n)).

(** A helper program that renders only templates of [P], renders only sound sources with [once], evaluates only
    paths that can be parsed, and panics itself only if [own] holds. *)
Fixpoint calm (pl : plat) (reg : registry) (own : Prop) (P : tpl -> Prop) (p : hprog) : Prop :=
  let go := calm pl reg own P in
  match p with
  | HRet _ | HFail _ => True
  | HPanic => own
  | HTemplate t k | HRender t k => P t /\ forall r, go (k r)
  | HBuffer t k => P t /\ forall r, go (k r)
  | HOnce f s _ k =>
      sound_source pl reg s /\ (forall p, compile (pl_penv pl) (mkOpts f 0 0) s <> PPanic p) /\ forall r, go (k r)
  | HInverse t k => P t /\ (forall o, all_opt P o -> go (k (HOk o))) /\ forall e, go (k (HErr e))
  | HWrite _ _ k | HOut _ k => forall r, go (k r)
  | HPushScope _ k | HScopeMut _ k | HUnregister _ k => go k
  | HPopScope k => forall r, go (k r)
  | HEval s k => (forall p, path_from_str (pl_penv pl) s <> PPanic p) /\ forall r, go (k r)
  | HRegister _ h k => (forall c t, all_opt P t -> go (h c t)) /\ go k
  | HGetTemplate _ k => forall o, all_opt P o -> go (k o)
  | HData k => forall r, go (k r)
  | HNames k => forall a b, go (k a b)
  | HEscape _ k => forall r, go (k r)
  | HLog _ _ k => go k
  end.
(** A helper that only works with the templates it is handed, and panics by itself only if [own] holds. *)
Definition calm_helper (pl : plat) (reg : registry) (own : Prop) (h : helper) : Prop :=
  forall P, handed pl reg P -> forall c t, all_opt P t -> calm pl reg own P (h c t).
Definition calm_registry (pl : plat) (reg : registry) (own : Prop) : Prop :=
  (forall n h, In (n, h) (rg_helpers reg) -> calm_helper pl reg own h)
  /\ (forall h, rg_link reg = Some h -> calm_helper pl reg own h)
  /\ (forall h, rg_missing reg = Some h -> calm_helper pl reg own h)
  /\ (forall h, rg_block_missing reg = Some h -> calm_helper pl reg own h).

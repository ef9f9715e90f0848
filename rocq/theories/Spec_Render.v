(** * Spec_Render: the vocabulary of the rendering properties.  No proofs in this file. *)
From Coq Require Import String Permutation.
From Verif Require Import Str Json Ast Parser Render.
Open Scope nat_scope. Open Scope list_scope.

(** ** Writing *)
(** the writer of [en], having received [out], accepts all of [xs] one after the other *)
Definition accepts (en : env) (out xs : list str) : Prop :=
  forall a x b, xs = a ++ x :: b -> exists n, en_write en (out ++ a) x = WOk n.
(** ... accepts all of [xs] but the last, which it answers with error [k] *)
Definition refuses_last (en : env) (out xs : list str) (k : nat) : Prop :=
  exists ys x, xs = ys ++ [x] /\ accepts en out ys /\ en_write en (out ++ ys) x = WErr k.
(** a helper program that passes I/O errors on to its caller (what [?] does), as do the helpers it registers *)
Fixpoint passes_io (p : hprog) : Prop :=
  match p with
  | HRet _ | HFail _ | HPanic => True
  | HTemplate _ k | HRender _ k => (forall r, passes_io (k r)) /\ forall i, k (HErr (EIo i)) = HFail (EIo i)
  | HBuffer _ k | HOnce _ _ _ k => forall r, passes_io (k r)
  | HInverse _ k => (forall r, passes_io (k r)) /\ forall i, k (HErr (EIo i)) = HFail (EIo i)
  | HWrite _ _ k | HOut _ k => (forall r, passes_io (k r)) /\ forall i, k (HErr (EIo i)) = HFail (EIo i)
  | HPushScope _ k => passes_io k
  | HPopScope k => forall r, passes_io (k r)
  | HScopeMut _ k => passes_io k
  | HEval _ k => forall r, passes_io (k r)
  | HRegister _ h k => (forall c t, passes_io (h c t)) /\ passes_io k
  | HUnregister _ k => passes_io k
  | HGetTemplate _ k => forall r, passes_io (k r)
  | HData k => forall r, passes_io (k r)
  | HNames k => forall a b, passes_io (k a b)
  | HEscape _ k => forall r, passes_io (k r)
  | HLog _ _ k => passes_io k
  end.

(** ** Scopes *)
(** A helper program whose own pushes and pops of scopes are balanced: [d] is the number of scopes it has
    pushed and not yet popped; it only changes scopes it has pushed itself.  [None]: an inner render has
    failed, after which it must not return normally (the failed render may have left scopes behind). *)
Fixpoint balanced (d : option nat) (p : hprog) : Prop :=
  match p with
  | HRet _ => d = Some 0
  | HFail _ | HPanic => True
  | HTemplate _ k | HRender _ k => balanced d (k (HOk tt)) /\ forall e, balanced None (k (HErr e))
  | HBuffer _ k | HOnce _ _ _ k => forall r, balanced d (k r)
  | HInverse _ k => (forall v, balanced d (k (HOk v))) /\ forall e, balanced None (k (HErr e))
  | HWrite _ _ k | HOut _ k => forall r, balanced d (k r)
  | HPushScope _ k => balanced (option_map S d) k
  | HPopScope k =>
      match d with
      | Some 0 => False
      | Some (S n) => forall s, balanced (Some n) (k (Some s))
      | None => forall r, balanced None (k r)
      end
  | HScopeMut _ k => d <> Some 0 /\ balanced d k
  | HEval _ k => forall r, balanced d (k r)
  | HRegister _ h k => (forall c t, balanced (Some 0) (h c t)) /\ balanced d k
  | HUnregister _ k => balanced d k
  | HGetTemplate _ k => forall r, balanced d (k r)
  | HData k => forall r, balanced d (k r)
  | HNames k => forall a b, balanced d (k a b)
  | HEscape _ k => forall r, balanced d (k r)
  | HLog _ _ k => balanced d k
  end.

(** every helper and handler of a registry, as a program for every context, satisfies [P] *)
Definition all_helpers (P : hprog -> Prop) (r : registry) : Prop :=
  (forall n h, In (n, h) (rg_helpers r) -> forall c t, P (h c t))
  /\ (forall h, rg_link r = Some h -> forall c t, P (h c t))
  /\ (forall h, rg_missing r = Some h -> forall c t, P (h c t))
  /\ (forall h, rg_block_missing r = Some h -> forall c t, P (h c t)).
(** ... and every local helper of a renderer state *)
Definition all_locals (P : hprog -> Prop) (st : rst) : Prop :=
  forall n h, In (n, h) (r_local st) -> forall c t, P (h c t).

(** ** Local helper names *)
(** a helper program that registers local helpers only under names from [U], as do those helpers *)
Fixpoint registers_in (U : list str) (p : hprog) : Prop :=
  match p with
  | HRet _ | HFail _ | HPanic => True
  | HTemplate _ k | HRender _ k => forall r, registers_in U (k r)
  | HBuffer _ k | HOnce _ _ _ k => forall r, registers_in U (k r)
  | HInverse _ k => forall r, registers_in U (k r)
  | HWrite _ _ k | HOut _ k => forall r, registers_in U (k r)
  | HPushScope _ k => registers_in U k
  | HPopScope k => forall r, registers_in U (k r)
  | HScopeMut _ k => registers_in U k
  | HEval _ k => forall r, registers_in U (k r)
  | HRegister n h k => In n U /\ (forall c t, registers_in U (h c t)) /\ registers_in U k
  | HUnregister _ k => registers_in U k
  | HGetTemplate _ k => forall r, registers_in U (k r)
  | HData k => forall r, registers_in U (k r)
  | HNames k => forall a b, registers_in U (k a b)
  | HEscape _ k => forall r, registers_in U (k r)
  | HLog _ _ k => registers_in U k
  end.

(** every helper a program registers (and those register, ...) satisfies [Q] *)
Fixpoint hall (Q : helper -> Prop) (p : hprog) : Prop :=
  match p with
  | HRet _ | HFail _ | HPanic => True
  | HTemplate _ k | HRender _ k => forall r, hall Q (k r)
  | HBuffer _ k | HOnce _ _ _ k => forall r, hall Q (k r)
  | HInverse _ k => forall r, hall Q (k r)
  | HWrite _ _ k | HOut _ k => forall r, hall Q (k r)
  | HPushScope _ k => hall Q k
  | HPopScope k => forall r, hall Q (k r)
  | HScopeMut _ k => hall Q k
  | HEval _ k => forall r, hall Q (k r)
  | HRegister _ h k => Q h /\ (forall ctx t, hall Q (h ctx t)) /\ hall Q k
  | HUnregister _ k => hall Q k
  | HGetTemplate _ k => forall r, hall Q (k r)
  | HData k => forall r, hall Q (k r)
  | HNames k => forall a b, hall Q (k a b)
  | HEscape _ k => forall r, hall Q (k r)
  | HLog _ _ k => hall Q k
  end.

(** ** Order of hash parameters *)
(** evaluating the parameter calls nothing *)
Definition quiet (p : param) : Prop := match p with VSub _ => False | _ => True end.
(** two iteration orders of the same hash parameters; a real difference only where evaluation is [quiet] *)
Definition orders_alike (o1 o2 : list (str * param)) : Prop :=
  o1 = o2 \/ (Permutation o1 o2 /\ NoDup (map fst o1) /\ Forall (fun kp => quiet (snd kp)) o1).
Record hash_order_only (p1 p2 : plat) : Prop := mkHoo {
  hoo_penv : pl_penv p2 = pl_penv p1; hoo_fstr : pl_fstr p2 = pl_fstr p1;
  hoo_show : pl_iotext p2 = pl_iotext p1; hoo_links : pl_links p2 = pl_links p1;
  hoo_order : forall src c, orders_alike (pl_order p1 src c) (pl_order p2 src c) }.
(** the helper does not look at the order in which missing values are listed *)
Definition order_blind (h : helper) : Prop := forall c c' t,
  hc_call c = hc_call c' -> hc_src c = hc_src c' -> hc_name c = hc_name c' -> hc_args c = hc_args c' ->
  hc_params c = hc_params c' -> hc_text c = hc_text c' -> hc_property c = hc_property c' ->
  Permutation (hc_missing c) (hc_missing c') -> h c t = h c' t.

(** ** Call stack limits *)
(** no helper or block helper is active more than [stack_max] times, no partial more than once *)
Definition within_limits (l : list site) : bool :=
  forallb (fun x => count_site x l <=? match x with SPartial _ => 1 | _ => stack_max end) l.
(** run [m] only if the call stack is within the limits, panic otherwise *)
Definition monitored {A} (m : M A) : M A := fun st => if within_limits (r_stack st) then m st else RPanic PanUnwrap.
(** the renderer with a monitor at every node, call and statement *)
Fixpoint tie_monitored (fuel : nat) : knot :=
  match fuel with
  | 0 => mkKnot (fun _ _ _ _ _ => RFuel) (fun _ _ _ _ => RFuel) (fun _ _ _ _ => RFuel)
  | S fuel =>
      let K := tie_monitored fuel in
      mkKnot (fun en src n tr => monitored (node_ K en src n tr)) (fun en src c => monitored (call_ K en src c))
             (fun en src c => monitored (stmt_ K en src c))
  end.

(** ** Partials that include each other *)
(** the node is a statement [{{> m ...}}] *)
Definition includes (src : str) (n : node) (m : str) : Prop :=
  exists c p, n = NStmt c /\ c_partial c = true /\ c_target c = TPath p /\ path_str src p = Some m /\ path_is_simple p = true.
(** every partial named in [C] is registered and its template includes, at its top level, a partial named in [C] *)
Definition cyclic (r : registry) (C : list str) : Prop :=
  ~ In partial_block C
  /\ forall n, In n C -> exists t x m, assoc n (rg_templates r) = Some t /\ In x (children (te_node t)) /\ includes (te_src t) x m /\ In m C.

(** ** Nodes rendered one after the other *)
(** [step] succeeds on each of the nodes in turn, each with some trim state *)
Inductive rendered (step : node -> trim_state -> M unit) : list node -> rst -> rst -> Prop :=
| rendered_nil st : rendered step [] st st
| rendered_cons n ns tr st s1 s2 : step n tr st = ROk tt s1 -> rendered step ns s1 s2 -> rendered step (n :: ns) st s2.

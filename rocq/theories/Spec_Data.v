(** * Spec_Data: which of the data a document can reach (C81).  No proofs in this file. *)
From Coq Require Import String.
From Verif Require Import Str Json Ast Parser Render Helpers Registry Spec_Helpers Spec_Source Spec_Sem.
Open Scope nat_scope. Open Scope list_scope.

(** two data values hold the same under each of these names *)
Definition agree (names : list str) (d d' : json) : Prop :=
  forall n p v, In n names -> (follow d (n :: p) v <-> follow d' (n :: p) v).
Definition among (l : list str) (n : str) : bool := existsb (streq n) l.
(** what the path reads of the data is under one of the names [N]; [inner]: [this] is not the data here *)
Definition path_within (N : list str) (inner : bool) (h : head) (t : tail) : bool :=
  match h with
  | HdName n | HdUp _ n => among N n
  | HdThis => inner || match t with x :: _ => among N (seg_value (snd x)) | [] => false end
  | HdDot s => inner || among N (seg_value s)
  | HdLocal n => negb (streq n (lit "root")) || match t with x :: _ => among N (seg_value (snd x)) | [] => true end
  | HdAbs _ => true
  end.
(** the call is that of a helper of the list [H] *)
Definition calls_one (H : list str) (h : head) (t : tail) : bool :=
  match t, h with [], (HdName _ | HdUp _ _ | HdAbs _) => among H (path_text h []) | _, _ => false end.
Definition head_within (H N : list str) (inner : bool) (h : head) (t : tail) : bool := calls_one H h t || path_within N inner h t.
Fixpoint expr_within (H N : list str) (inner : bool) (x : expr) : bool :=
  match x with EPath h t => path_within N inner h t | ESub c => call_within H N inner c | _ => true end
with call_within (H N : list str) (inner : bool) (c : callx) : bool :=
  match c with
  | Call h t xs hs => head_within H N inner h t && forallb (expr_within H N inner) xs && forallb (fun kx => expr_within H N inner (snd kx)) hs
  end.
Definition args_within (H N : list str) (inner : bool) (xs : list expr) (hs : list (str * expr)) : bool :=
  forallb (expr_within H N inner) xs && forallb (fun kx => expr_within H N inner (snd kx)) hs.
(** every path of the item, where it stands: in the body of [with], of [each] and in what a partial block hands over [this] is not the data;
    in other blocks it may be *)
Fixpoint item_within (H N : list str) (inner : bool) (i : item) : bool :=
  match i with
  | ICall _ _ partial (Call h t xs hs) => (partial || head_within H N inner h t) && args_within H N inner xs hs
  | IDyn _ _ _ c xs hs => call_within H N inner c && args_within H N inner xs hs
  | IRaw (Call _ _ xs hs) _ _ _ => args_within H N inner xs hs
  | IBlock true (Call _ _ xs hs) _ body _ _ => args_within H N inner xs hs && forallb (item_within H N true) body
  | IBlock false (Call h t xs hs) _ body bs _ =>
      let n := path_text h t in
      head_within H N inner h t && args_within H N inner xs hs
      && (if among H n && among [lit "with"; lit "each"] n then forallb (item_within H N true) body
          else let b := among H n && among [lit "if"; lit "unless"] n && inner in
               forallb (item_within H N b) body
               && forallb (fun br => match fst (fst br) with Some c => call_within H N b c | None => true end && forallb (item_within H N b) (snd br)) bs)
  | _ => true
  end.

(** a program of a helper that asks neither for the data nor for the value of a path, and renders no other source *)
Inductive discreet : hprog -> Prop :=
| dc_ret v : discreet (HRet v)
| dc_fail e : discreet (HFail e)
| dc_panic : discreet HPanic
| dc_template t k : (forall r, discreet (k r)) -> discreet (HTemplate t k)
| dc_render t k : (forall r, discreet (k r)) -> discreet (HRender t k)
| dc_buffer t k : (forall r, discreet (k r)) -> discreet (HBuffer t k)
| dc_inverse t k : (forall r, discreet (k r)) -> discreet (HInverse t k)
| dc_write s e k : (forall r, discreet (k r)) -> discreet (HWrite s e k)
| dc_out s k : (forall r, discreet (k r)) -> discreet (HOut s k)
| dc_push s k : discreet k -> discreet (HPushScope s k)
| dc_pop k : (forall r, discreet (k r)) -> discreet (HPopScope k)
| dc_mut f k : discreet k -> discreet (HScopeMut f k)
| dc_register n h k : discreet k -> discreet (HRegister n h k)
| dc_unregister n k : discreet k -> discreet (HUnregister n k)
| dc_get n k : (forall r, discreet (k r)) -> discreet (HGetTemplate n k)
| dc_names k : (forall a b, discreet (k a b)) -> discreet (HNames k)
| dc_escape s k : (forall r, discreet (k r)) -> discreet (HEscape s k)
| dc_log l s k : discreet k -> discreet (HLog l s k).
(** every helper and handler of the registry is like that *)
Definition discreet_registry (r : registry) : Prop :=
  forall f, ((exists n, assoc n (rg_helpers r) = Some f) \/ rg_missing r = Some f \/ rg_block_missing r = Some f \/ rg_link r = Some f) ->
  forall ctx t, discreet (f ctx t).

(** * ParserFacts: proofs about the parser model: termination (fuel), token consumption, line counting,
    validity of spans, names of tags. *)
From Coq Require Import Lia String.
From Verif Require Import Str Lexer Json Ast ErrInfo Parser Spec_Lexer Spec_Ast StrFacts RegexFacts LexerFacts.
Open Scope nat_scope. Open Scope list_scope.

(** ** Results *)
Definition ok_panic (p : panic) : Prop := p = PanErrorInfo \/ p = PanNumber \/ p = PanParents.
Definition ppost {S A} (Q : A -> S -> Prop) (E : S -> Prop) (m : pres S A) : Prop :=
  match m with
  | POk a s => Q a s
  | PErr _ s => E s
  | PPanic p => ok_panic p
  | PFuel => False
  end.
Lemma ppost_bind {S A B} (Q1 : A -> S -> Prop) Q (E : S -> Prop) (m : pres S A) (f : A -> S -> pres S B) :
  ppost Q1 E m -> (forall a s, Q1 a s -> ppost Q E (f a s)) -> ppost Q E (pbind m f).
Proof. destruct m; simpl; auto. Qed.
Lemma ppost_mono {S A} (Q Q' : A -> S -> Prop) (E E' : S -> Prop) (m : pres S A) :
  ppost Q E m -> (forall a s, Q a s -> Q' a s) -> (forall s, E s -> E' s) -> ppost Q' E' m.
Proof. destruct m; simpl; auto. Qed.
Lemma ppost_perr_n {A} cx k notes st (Q : A -> pst -> Prop) (E : pst -> Prop) :
  E st -> ppost Q E (perr_n cx k notes st).
Proof. intros H. unfold perr_n. destruct (err_info _ _ _ _ _ _); simpl; [exact H | left; reflexivity]. Qed.
Lemma ppost_perr {A} cx k st (Q : A -> pst -> Prop) (E : pst -> Prop) : E st -> ppost Q E (perr cx k st).
Proof. apply ppost_perr_n. Qed.

(** ** Good token lists *)
Definition pos (src : str) (l : list token) : nat := match l with t :: _ => t_start t | [] => blen src end.
Definition tok_ok (src : str) (t : token) : Prop :=
  bnd src (t_start t) /\ bnd src (t_end t) /\ t_start t < t_end t
  /\ match t_kind t with
     | TParam KHashKey => bnd src (t_end t - 1)
     | TDouble q | TSingle q | TArray q =>
         match q with QText | QError | QNewline => True | _ => bnd src (t_start t + 1) end
     | _ => True
     end.
Definition good (src : str) (l : list token) : Prop :=
  tiles (pos src l) (blen src) l /\ Forall (tok_ok src) l.
Definition full (n : option token) (l : list token) : list token := match n with Some t => t :: l | None => l end.

Lemma good_nil src : good src [].
Proof. split; [reflexivity | constructor]. Qed.
Lemma good_cons src t l : good src (t :: l) -> tok_ok src t /\ good src l /\ pos src l = t_end t.
Proof.
  intros [Ht Hf]. inversion Hf as [|? ? H1 H2]; subst. simpl in Ht. destruct Ht as (_ & _ & Ht).
  assert (Hp : pos src l = t_end t).
  { destruct l as [|u l]; simpl in *; [symmetry; exact Ht | apply Ht]. }
  split; [exact H1|]. split; [|exact Hp]. split; [rewrite Hp; exact Ht | exact H2].
Qed.
Lemma good_app src a l : good src (a ++ l) -> good src l /\ pos src (a ++ l) <= pos src l.
Proof.
  induction a as [|t a IH]; simpl; intros H; [split; [exact H | lia]|].
  apply good_cons in H. destruct H as ((_ & _ & Hlt & _) & Hg & Hp). destruct (IH Hg) as [Hl Hle].
  split; [exact Hl | lia].
Qed.
Lemma good_pos_bnd src l : good src l -> bnd src (pos src l).
Proof. destruct l as [|t l]; intros H; simpl; [apply bnd_len|]. apply good_cons in H. apply H. Qed.
Lemma good_pos_le src l : good src l -> pos src l <= blen src.
Proof. intros H. apply bnd_le, good_pos_bnd, H. Qed.
Lemma good_in src l t : good src l -> In t l -> tok_ok src t.
Proof. intros [_ H] Hin. rewrite Forall_forall in H. apply H, Hin. Qed.

(** ** Consumption of tokens *)
Definition nl1 (t : token) : nat := if is_newline (t_kind t) then 1 else 0.
Fixpoint nlc (l : list token) : nat := match l with [] => 0 | t :: l' => nl1 t + nlc l' end.
Lemma nlc_app a b : nlc (a ++ b) = nlc a + nlc b.
Proof. induction a as [|t a IH]; simpl; [reflexivity | rewrite IH; lia]. Qed.
Definition noskip (t : token) : bool :=
  match t_kind t with TParam KParentRef | TParam KPathDelim => false | _ => true end.
(** tokens [path_loop] skips without looking at them *)
Definition skipt (t : token) : bool :=
  match t_kind t with TParam k => negb (is_path_component k) | _ => false end.
(** a newline inside a tag that the parser skips without counting it: between a [../] or delimiter and the
    next path component *)
Definition hidden (l : list token) : Prop :=
  exists a t mid u b, l = a ++ t :: mid ++ u :: b /\ noskip t = false
    /\ Forall (fun x => skipt x = true) mid /\ t_kind u = TParam KNewline.
Definition clean (l : list token) : Prop := ~ hidden l.
Lemma clean_app a b : clean (a ++ b) -> clean a /\ clean b.
Proof.
  intros H. split; intros (x & t & mid & u & y & -> & H1).
  - apply H. exists x, t, mid, u, (y ++ b). rewrite <- !app_assoc. simpl. rewrite <- !app_assoc. simpl. split; [reflexivity | exact H1].
  - apply H. exists (a ++ x), t, mid, u, y. rewrite <- !app_assoc. split; [reflexivity | exact H1].
Qed.

Definition steps (l : list token) (n : nat) (l' : list token) (n' : nat) : Prop :=
  exists pre, l = pre ++ l' /\ n' <= n + nlc pre /\ (clean pre -> n' = n + nlc pre).
Lemma steps_refl l n : steps l n l n.
Proof. exists []. simpl. repeat split; lia. Qed.
Lemma steps_trans l n l1 n1 l2 n2 : steps l n l1 n1 -> steps l1 n1 l2 n2 -> steps l n l2 n2.
Proof.
  intros (p & -> & H1 & C1) (q & -> & H2 & C2). exists (p ++ q). rewrite <- app_assoc, nlc_app.
  split; [reflexivity|]. split; [lia|]. intros H. apply clean_app in H. destruct H as [Hp Hq].
  rewrite (C2 Hq), (C1 Hp). lia.
Qed.
Lemma steps_cons t l n l' n' : steps l (n + nl1 t) l' n' -> steps (t :: l) n l' n'.
Proof.
  intros H. eapply steps_trans; [|exact H]. exists [t]. simpl. repeat split; lia.
Qed.
Lemma steps_cons0 t l n l' n' : is_newline (t_kind t) = false -> steps l n l' n' -> steps (t :: l) n l' n'.
Proof. intros E H. apply steps_cons. unfold nl1. rewrite E, Nat.add_0_r. exact H. Qed.
Lemma steps_cons1 t l n l' n' : is_newline (t_kind t) = true -> steps l (S n) l' n' -> steps (t :: l) n l' n'.
Proof. intros E H. apply steps_cons. unfold nl1. rewrite E, Nat.add_1_r. exact H. Qed.
Lemma steps_good src l n l' n' : steps l n l' n' -> good src l -> good src l' /\ pos src l <= pos src l'.
Proof. intros (p & -> & _) H. apply good_app, H. Qed.
Lemma steps_len l n l' n' : steps l n l' n' -> length l' <= length l.
Proof. intros (p & -> & _). rewrite app_length. lia. Qed.

(** error states: the rest of the tokens is a suffix *)
Definition esuf (l : list token) (st : pst) : Prop := exists pre, l = pre ++ p_toks st.
Lemma esuf_trans a l st : esuf l st -> esuf (a ++ l) st.
Proof. intros (p & ->). exists (a ++ p). rewrite app_assoc. reflexivity. Qed.
Lemma esuf_cons t l st : esuf l st -> esuf (t :: l) st.
Proof. apply (esuf_trans [t]). Qed.
Lemma esuf_refl l line b : esuf l (mkPst l line b).
Proof. exists []. reflexivity. Qed.
Lemma steps_esuf l n l' n' st : steps l n l' n' -> esuf l' st -> esuf l st.
Proof. intros (p & -> & _) H. apply esuf_trans, H. Qed.

(** ** Spans *)
Definition sp_in (src : str) (lo hi : nat) (s : span) : Prop :=
  valid_span src s /\ (lo <= fst s \/ s = (0, 0)) /\ snd s <= hi.
Lemma sp_in_mono src lo hi lo' hi' s : lo' <= lo -> hi <= hi' -> sp_in src lo hi s -> sp_in src lo' hi' s.
Proof. intros H1 H2 (V & [L|L] & U); repeat split; try apply V; try (left; lia); try (right; assumption); lia. Qed.
Lemma sp_in_zero src lo hi : sp_in src lo hi (0, 0).
Proof. repeat split; simpl; try apply bnd_0; try lia. right. reflexivity. Qed.
Lemma sp_in_tok src lo hi t : tok_ok src t -> lo <= t_start t -> t_end t <= hi -> sp_in src lo hi (tspan t).
Proof. intros (H1 & H2 & H3 & _) Hl Hh. repeat split; simpl; try assumption; try lia. Qed.
Lemma sp_in_slice src lo hi s : sp_in src lo hi s -> exists v, sl src s = Some v.
Proof. intros ((H1 & H2 & H3) & _). apply slice_some; assumption. Qed.
Definition sps (src : str) (lo hi : nat) (l : list span) : Prop := Forall (sp_in src lo hi) l.
Lemma sps_mono src lo hi lo' hi' l : lo' <= lo -> hi <= hi' -> sps src lo hi l -> sps src lo' hi' l.
Proof. intros H1 H2 H. eapply Forall_impl; [|exact H]. intros s. apply sp_in_mono; assumption. Qed.
Lemma sps_app src lo hi a b : sps src lo hi (a ++ b) <-> sps src lo hi a /\ sps src lo hi b.
Proof. apply Forall_app. Qed.

Definition tag_ok (p : span * span) : Prop := snd (fst p) <= fst (snd p).
Definition call_ok (src : str) (lo hi : nat) (c : call) : Prop :=
  sps src lo hi (call_spans c) /\ Forall tag_ok (call_tags c).
Definition path_ok (src : str) (lo hi : nat) (p : path) : Prop := sps src lo hi (path_spans p).
Definition param_ok (src : str) (lo hi : nat) (v : param) : Prop :=
  sps src lo hi (param_spans v) /\ Forall tag_ok (param_tags v).
Definition target_ok (src : str) (lo hi : nat) (v : target) : Prop :=
  sps src lo hi (target_spans v) /\ Forall tag_ok (target_tags v).
Lemma call_ok_mono src lo hi lo' hi' c : lo' <= lo -> hi <= hi' -> call_ok src lo hi c -> call_ok src lo' hi' c.
Proof. intros H1 H2 [H3 H4]. split; [eapply sps_mono; eassumption | exact H4]. Qed.

Lemma call_ok_unfold src lo hi p k o cl t a h l :
  call_ok src lo hi (mkCall p k o cl t a h l) <->
  sp_in src lo hi o
  /\ match cl with Some c => sp_in src lo hi c /\ tag_ok (o, c) | None => True end
  /\ target_ok src lo hi t /\ Forall (param_ok src lo hi) a
  /\ Forall (fun kv => param_ok src lo hi (snd kv)) h.
Proof.
  assert (FM : forall A (g : A -> list span) (g' : A -> list (span * span)) (xs : list A),
     sps src lo hi (flat_map g xs) /\ Forall tag_ok (flat_map g' xs) <->
     Forall (fun x => sps src lo hi (g x) /\ Forall tag_ok (g' x)) xs).
  { intros A g g' xs. induction xs as [|x xs IH]; simpl.
    - split; [intros _; constructor | intros _; split; constructor].
    - rewrite sps_app, Forall_app, Forall_cons_iff, <- IH. tauto. }
  unfold call_ok, target_ok, param_ok. cbn [call_spans call_tags].
  rewrite <- FM, <- (FM _ (fun kv : str * param => param_spans (snd kv)) (fun kv : str * param => param_tags (snd kv))).
  unfold sps at 1. rewrite Forall_cons_iff. fold (sps src lo hi).
  change (Forall (sp_in src lo hi)) with (sps src lo hi).
  rewrite !sps_app, !Forall_app.
  destruct cl as [cl|]; simpl opt_list; simpl tag_pair.
  - unfold sps at 1. rewrite Forall_cons_iff. unfold sps. rewrite (Forall_cons_iff tag_ok).
    pose proof (Forall_nil (sp_in src lo hi)). pose proof (Forall_nil tag_ok). tauto.
  - pose proof (Forall_nil (sp_in src lo hi)). pose proof (Forall_nil tag_ok). unfold sps. tauto.
Qed.

Lemma assoc_set_forall {A} (P : str * A -> Prop) k v l :
  P (k, v) -> Forall P l -> Forall P (assoc_set k v l).
Proof.
  intros Hv Hl. induction Hl as [|[k' v'] l H Hl IH]; simpl; [repeat constructor; exact Hv|].
  destruct (streq k k'); constructor; assumption.
Qed.

(** ** The token stream of a source is good *)
Ltac pats_cases H :=
  simpl in H;
  repeat match type of H with
         | _ \/ _ => destruct H as [H|H]; [try discriminate H|]
         | False => destruct H
         end.
Ltac ascii_head Hl :=
  try (apply lang_cat_iff in Hl; destruct Hl as (? & ? & -> & Hl & _));
  apply lang_chr_iff in Hl; let c := fresh "c" in destruct Hl as (c & -> & Hl); apply N.eqb_eq in Hl; subst c.
Lemma tokenizes_good src m l : tokenizes m 0 src l ->
  (forall t, In t l -> t_kind t <> err_kind (kind_mode (t_kind t)) ->
     exists s1 w s2 r, src = s1 ++ w ++ s2 /\ blen s1 = t_start t /\ t_end t = t_start t + blen w
       /\ In (r, t_kind t) (pats (kind_mode (t_kind t))) /\ lang r w) -> good src l.
Proof.
  intros Ht Hsh. pose proof (tokenizes_tiles _ _ _ _ Ht) as Hti. pose proof (tokenizes_bnd _ _ _ _ [] Ht eq_refl) as Hb.
  simpl in Hti, Hb. split.
  - destruct l as [|t l]; [exact eq_refl|]. simpl in *. tauto.
  - apply Forall_forall. intros t Hin. destruct (Hb t Hin) as [H1 H2]. split; [exact H1|]. split; [exact H2|]. split.
    + clear -Hti Hin. revert Hti. generalize 0 as p. induction l as [|u l IH]; intros p Hti; [destruct Hin|].
      simpl in Hti. destruct Hin as [<-|Hin]; [apply Hti | eapply IH; [exact Hin | apply Hti]].
    + specialize (Hsh t Hin).
      assert (A1 : forall s1 c w s2, src = s1 ++ (c :: w) ++ s2 -> blen s1 = t_start t -> clen c = 1 -> bnd src (t_start t + 1)).
      { intros s1 c w s2 -> <- Hc. exists (s1 ++ [c]), (w ++ s2). rewrite <- app_assoc, blen_app. simpl. rewrite Hc.
        split; [reflexivity | lia]. }
      destruct (t_kind t) as [b|q|q|q|k|q|q|q|q] eqn:Ek; try exact I; simpl in Hsh.
      * destruct k; try exact I. destruct Hsh as (s1 & w & s2 & r & Es & E1 & E2 & Hr & Hl); [discriminate|].
        pats_cases Hr. injection Hr as <-. apply lang_cat_iff in Hl. destruct Hl as (x & y & -> & Hx & Hy).
        apply lang_lit in Hy. subst y. rewrite E2, blen_app. simpl. exists (s1 ++ x), (lit "=" ++ s2).
        rewrite Es, !app_assoc, blen_app. split; [reflexivity|]. change (clen 61%N) with 1. lia.
      * destruct q; try exact I; (destruct Hsh as (s1 & w & s2 & r & Es & E1 & E2 & Hr & Hl); [discriminate|]);
          pats_cases Hr; injection Hr as <-;
          ascii_head Hl; (eapply A1; [exact Es | exact E1 | reflexivity]).
      * destruct q; try exact I; (destruct Hsh as (s1 & w & s2 & r & Es & E1 & E2 & Hr & Hl); [discriminate|]);
          pats_cases Hr; injection Hr as <-;
          ascii_head Hl; (eapply A1; [exact Es | exact E1 | reflexivity]).
      * destruct q; try exact I; (destruct Hsh as (s1 & w & s2 & r & Es & E1 & E2 & Hr & Hl); [discriminate|]);
          pats_cases Hr; injection Hr as <-;
          ascii_head Hl; (eapply A1; [exact Es | exact E1 | reflexivity]).
Qed.
Lemma lex_good src l : lex src = Some l -> good src l.
Proof.
  intros H. eapply tokenizes_good; [apply lex_tokenizes, H|]. intros t. apply lex_token_lang, H.
Qed.

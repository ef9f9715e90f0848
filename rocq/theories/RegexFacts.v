(** * RegexFacts: [deriv]-based matching agrees with the usual language of a regular expression. *)
From Coq Require Import Lia.
From Verif Require Import Str Regex Spec_Lexer.
Open Scope nat_scope. Open Scope list_scope.

Lemma nullable_spec r : nullable r = true <-> lang r [].
Proof.
  induction r as [| | f | a IHa b IHb | a IHa b IHb | a IHa]; simpl.
  - split; [discriminate | intros H; inversion H].
  - split; [constructor | reflexivity].
  - split; [discriminate | intros H; inversion H].
  - rewrite andb_true_iff, IHa, IHb. split.
    + intros [Ha Hb]. apply (lang_cat a b [] []); assumption.
    + intros H. inversion H as [| | x y s t Hs Ht E1 E2 | | | |]; subst.
      destruct s; [|discriminate]. destruct t; [|discriminate]. split; assumption.
  - rewrite orb_true_iff, IHa, IHb. split.
    + intros [Ha|Hb]; [apply lang_alt_l | apply lang_alt_r]; assumption.
    + intros H. inversion H; subst; [left | right]; assumption.
  - split; [constructor | reflexivity].
Qed.

Lemma mk_cat_spec a b s : lang (mk_cat a b) s <-> lang (RCat a b) s.
Proof.
  assert (He : forall x s, lang (RCat x REmpty) s -> False).
  { intros x t H. inversion H as [| | ? ? ? ? ? Hx | | | |]; subst. inversion Hx. }
  assert (Hd : forall x s, x <> REmpty -> x <> REps -> lang (mk_cat x b) s <-> lang (RCat x b) s).
  { intros x t Hx Hy. destruct x; try congruence; simpl; destruct b; try reflexivity;
      (split; [intros H; inversion H | intros H; exfalso; eapply He; exact H]). }
  destruct a; try (apply Hd; congruence); simpl.
  - split; intros H; [inversion H|]. inversion H as [| | ? ? ? ? Hx | | | |]; subst. inversion Hx.
  - split; intros H.
    + apply (lang_cat REps b [] s); [constructor | assumption].
    + inversion H as [| | ? ? ? ? Hx Hy | | | |]; subst. inversion Hx; subst. exact Hy.
Qed.
Lemma mk_alt_spec a b s : lang (mk_alt a b) s <-> lang (RAlt a b) s.
Proof.
  assert (H1 : forall x, lang (RAlt REmpty x) s <-> lang x s).
  { intros x. split; intros H; [inversion H as [| | | ? ? ? Hx | | |]; subst; [inversion Hx | assumption]
                                 | apply lang_alt_r; assumption]. }
  assert (H2 : forall x, lang (RAlt x REmpty) s <-> lang x s).
  { intros x. split; intros H; [inversion H as [| | | | ? ? ? Hx | |]; subst; [assumption | inversion Hx]
                                 | apply lang_alt_l; assumption]. }
  destruct a; simpl; try (symmetry; apply H1); destruct b; simpl; try reflexivity; symmetry; apply H2.
Qed.

Lemma lang_cat_inv a b t : lang (RCat a b) t -> exists s1 s2, t = s1 ++ s2 /\ lang a s1 /\ lang b s2.
Proof. intros H. inversion H as [| | x y s1 s2 H1 H2 E1 E2 | | | |]; subst. exists s1, s2. auto. Qed.

Lemma deriv_spec r : forall c s, lang (deriv c r) s <-> lang r (c :: s).
Proof.
  induction r as [| | f | a IHa b IHb | a IHa b IHb | a IHa]; intros c s; simpl.
  - split; intros H; inversion H.
  - split; intros H; inversion H.
  - destruct (f c) eqn:E.
    + split; intros H; inversion H; subst; [constructor; assumption | constructor].
    + split; intros H; inversion H; subst. congruence.
  - assert (Hc : lang (mk_cat (deriv c a) b) s <->
                 exists s1 s2, s = s1 ++ s2 /\ lang a (c :: s1) /\ lang b s2).
    { rewrite mk_cat_spec. split.
      - intros H. inversion H as [| | x y s1 s2 H1 H2 | | | |]; subst. exists s1, s2.
        split; [reflexivity|]. split; [apply IHa|]; assumption.
      - intros (s1 & s2 & -> & H1 & H2). apply lang_cat; [apply IHa|]; assumption. }
    assert (Hr : lang (RCat a b) (c :: s) <->
                 (exists s1 s2, s = s1 ++ s2 /\ lang a (c :: s1) /\ lang b s2)
                 \/ (lang a [] /\ lang b (c :: s))).
    { split.
      - intros H. destruct (lang_cat_inv _ _ _ H) as (s1 & s2 & E2 & H1 & H2).
        destruct s1 as [|d s1]; simpl in E2.
        + right. rewrite E2. split; assumption.
        + injection E2 as <- ->. left. exists s1, s2. repeat split; assumption.
      - intros [(s1 & s2 & -> & H1 & H2)|[H1 H2]].
        + apply (lang_cat a b (c :: s1) s2); assumption.
        + apply (lang_cat a b [] (c :: s)); assumption. }
    rewrite Hr. destruct (nullable a) eqn:N.
    + rewrite mk_alt_spec. split.
      * intros H. inversion H; subst; [left; apply Hc; assumption | right].
        split; [apply nullable_spec; assumption | apply IHb; assumption].
      * intros [H|[_ H]]; [apply lang_alt_l; apply Hc, H | apply lang_alt_r; apply IHb, H].
    + rewrite Hc. split; [intros H; left; exact H|]. intros [H|[H _]]; [exact H|].
      apply nullable_spec in H. congruence.
  - rewrite mk_alt_spec. split; intros H; inversion H; subst.
    + apply lang_alt_l. apply IHa. assumption.
    + apply lang_alt_r. apply IHb. assumption.
    + apply lang_alt_l. apply IHa. assumption.
    + apply lang_alt_r. apply IHb. assumption.
  - rewrite mk_cat_spec. split.
    + intros H. inversion H as [| | x y s1 s2 H1 H2 | | | |]; subst.
      apply (lang_star_cons a (c :: s1) s2); [apply IHa|]; assumption.
    + intros H. remember (RStar a) as r eqn:Er. remember (c :: s) as t eqn:Et.
      induction H as [| | | | | | a' s1 s2 H1 _ H2 IH]; try discriminate.
      injection Er as ->. destruct s1 as [|d s1]; simpl in Et.
      * subst s2. apply IH; reflexivity.
      * injection Et as -> <-. apply lang_cat; [apply IHa|]; assumption.
Qed.

Lemma longest_empty s n best : longest REmpty s n best = best.
Proof. destruct s; reflexivity. Qed.
Lemma longest_nil r n best : longest r [] n best = if nullable r then Some n else best.
Proof. destruct r; reflexivity. Qed.
Lemma longest_cons r c s n best :
  longest r (c :: s) n best = longest (deriv c r) s (S n) (if nullable r then Some n else best).
Proof. destruct r; simpl; try reflexivity. symmetry. apply longest_empty. Qed.

(** [longest]: the largest [k] such that the first [k] characters match, else [best]. *)
Lemma longest_spec s : forall r n best,
  (forall k, k <= length s -> lang r (firstn k s) ->
     exists m, longest r s n best = Some (n + m) /\ k <= m)
  /\ (forall x, longest r s n best = Some x ->
        best = Some x \/ exists m, x = n + m /\ m <= length s /\ lang r (firstn m s)).
Proof.
  induction s as [|c s IH]; intros r n best.
  - rewrite longest_nil. split.
    + intros k Hk H. destruct k; [|simpl in Hk; lia]. simpl in H. apply nullable_spec in H. rewrite H.
      exists 0. split; [f_equal; lia | lia].
    + intros x H. destruct (nullable r) eqn:E; [|left; exact H]. injection H as <-.
      right. exists 0. split; [lia|]. split; [simpl; lia|]. apply nullable_spec, E.
  - rewrite longest_cons. destruct (IH (deriv c r) (S n) (if nullable r then Some n else best)) as [IH1 IH2].
    split.
    + intros k Hk H. destruct k as [|k].
      * simpl in H. apply nullable_spec in H. rewrite H in *.
        destruct (longest (deriv c r) s (S n) (Some n)) as [x|] eqn:E.
        -- destruct (IH2 x eq_refl) as [Hx|(m & -> & _)].
           ++ injection Hx as <-. exists 0. split; [f_equal; lia | lia].
           ++ exists (S m). split; [f_equal; lia | lia].
        -- exfalso. clear -E. revert E. generalize (S n) as q. generalize (deriv c r) n. clear.
           induction s as [|c s IH]; intros r b q E.
           ++ rewrite longest_nil in E. destruct (nullable r); discriminate.
           ++ rewrite longest_cons in E. destruct (nullable r); apply IH in E; exact E.
      * simpl in H. apply deriv_spec in H.
        destruct (IH1 k ltac:(simpl in Hk; lia) H) as (m & Hm & Hkm).
        exists (S m). split; [rewrite Hm; f_equal; lia | lia].
    + intros x H. destruct (IH2 x H) as [Hb|(m & -> & Hm & Hl)].
      * destruct (nullable r) eqn:E; [|left; exact Hb]. injection Hb as <-.
        right. exists 0. split; [lia|]. split; [lia|]. apply nullable_spec, E.
      * right. exists (S m). split; [lia|]. split; [simpl; lia|]. simpl. apply deriv_spec, Hl.
Qed.

Lemma longest_some r s n :
  longest r s 0 None = Some (S n) ->
  pat_match r s (S n) /\ forall m, pat_match r s m -> m <= S n.
Proof.
  intros H. destruct (longest_spec s r 0 None) as [H1 H2]. split.
  - destruct (H2 _ H) as [Hx|(m & E & Hm & Hl)]; [discriminate|]. simpl in E. subst m.
    split; [lia | exact Hl].
  - intros m [[Hm1 Hm2] Hl]. destruct (H1 m Hm2 Hl) as (k & Hk & Hle). rewrite H in Hk.
    injection Hk as Hk. lia.
Qed.
Lemma longest_none r s :
  (forall n, longest r s 0 None <> Some (S n)) -> forall m, ~ pat_match r s m.
Proof.
  intros H m [[Hm1 Hm2] Hl]. destruct (longest_spec s r 0 None) as [H1 _].
  destruct (H1 m Hm2 Hl) as (k & Hk & Hle). destruct k; [lia|]. eapply H, Hk.
Qed.

(** Maximal munch: the chosen pattern matches, nothing matches longer, and no earlier pattern
    matches equally long. *)
Lemma munch_spec {A} (pats : list (re * A)) s :
  match munch pats s with
  | Some (a, n) =>
      exists l1 r l2, pats = l1 ++ (r, a) :: l2 /\ pat_match r s n
        /\ (forall r' a' m, In (r', a') pats -> pat_match r' s m -> m <= n)
        /\ (forall r' a', In (r', a') l1 -> ~ pat_match r' s n)
  | None => forall r a m, In (r, a) pats -> ~ pat_match r s m
  end.
Proof.
  induction pats as [|[r a] pats IH]; simpl.
  - intros r a m [].
  - assert (Hcase : (exists n, longest r s 0 None = Some (S n)) \/ (forall n, longest r s 0 None <> Some (S n))).
    { destruct (longest r s 0 None) as [[|n]|]; [right; discriminate | left; exists n; reflexivity | right; discriminate]. }
    destruct Hcase as [[n Hn]|Hno].
    + rewrite Hn. apply longest_some in Hn. destruct Hn as [Hm Hmax].
      destruct (munch pats s) as [[b m]|].
      * destruct IH as (l1 & r' & l2 & -> & Hm' & Hmax' & Hfst).
        destruct (Nat.ltb_spec (S n) m) as [Hlt|Hge].
        -- exists ((r, a) :: l1), r', l2. split; [reflexivity|]. split; [exact Hm'|]. split.
           ++ intros r2 a2 k [E|Hin] Hk; [injection E as <- <-; specialize (Hmax k Hk); lia | eapply Hmax'; eassumption].
           ++ intros r2 a2 [E|Hin] Hk; [injection E as <- <-; specialize (Hmax m Hk); lia | eapply Hfst; eassumption].
        -- exists [], r, (l1 ++ (r', b) :: l2). split; [reflexivity|]. split; [exact Hm|]. split.
           ++ intros r2 a2 k [E|Hin] Hk; [injection E as <- <-; apply Hmax, Hk | specialize (Hmax' r2 a2 k Hin Hk); lia].
           ++ intros r2 a2 [].
      * exists [], r, pats. split; [reflexivity|]. split; [exact Hm|]. split.
        -- intros r2 a2 k [E|Hin] Hk; [injection E as <- <-; apply Hmax, Hk | exfalso; eapply IH; eassumption].
        -- intros r2 a2 [].
    + pose proof (longest_none r s Hno) as Hnone.
      assert (Heq : (match longest r s 0 None with
                     | Some (S n) => match munch pats s with
                                     | Some (b, m) => if S n <? m then Some (b, m) else Some (a, S n)
                                     | None => Some (a, S n)
                                     end
                     | _ => munch pats s
                     end) = munch pats s).
      { destruct (longest r s 0 None) as [[|n]|]; try reflexivity. exfalso. eapply Hno. reflexivity. }
      rewrite Heq. destruct (munch pats s) as [[b m]|].
      * destruct IH as (l1 & r' & l2 & -> & Hm' & Hmax' & Hfst).
        exists ((r, a) :: l1), r', l2. split; [reflexivity|]. split; [exact Hm'|]. split.
        -- intros r2 a2 k [E|Hin] Hk; [injection E as <- <-; exfalso; eapply Hnone, Hk | eapply Hmax'; eassumption].
        -- intros r2 a2 [E|Hin] Hk; [injection E as <- <-; eapply Hnone, Hk | eapply Hfst; eassumption].
      * intros r2 a2 k [E|Hin] Hk; [injection E as <- <-; eapply Hnone, Hk | eapply IH; eassumption].
Qed.

Lemma lang_lit l s : lang (RLit l) s <-> s = l.
Proof.
  revert s. induction l as [|c l IH]; intros s; simpl.
  - split; [intros H; inversion H; reflexivity | intros ->; constructor].
  - destruct l as [|d l].
    + split.
      * intros H. inversion H as [|f x Hx | | | | |]; subst. apply N.eqb_eq in Hx. congruence.
      * intros ->. constructor. apply N.eqb_refl.
    + split.
      * intros H. apply lang_cat_inv in H. destruct H as (a & b & -> & Ha & Hb).
        apply IH in Hb. inversion Ha as [|f x Hx | | | | |]; subst. apply N.eqb_eq in Hx. subst. reflexivity.
      * intros ->. apply (lang_cat _ _ [c] (d :: l)); [constructor; apply N.eqb_refl | apply IH; reflexivity].
Qed.
Lemma lang_chr_iff f s : lang (RChr f) s <-> exists c, s = [c] /\ f c = true.
Proof.
  split; [intros H; inversion H as [|g c Hc | | | | |]; subst; exists c; split; [reflexivity | assumption]|].
  intros (c & -> & H). constructor. exact H.
Qed.
Lemma lang_cat_iff a b t : lang (RCat a b) t <-> exists s1 s2, t = s1 ++ s2 /\ lang a s1 /\ lang b s2.
Proof. split; [apply lang_cat_inv|]. intros (s1 & s2 & -> & H1 & H2). constructor; assumption. Qed.
Lemma lang_opt_iff r s : lang (ROpt r) s <-> s = [] \/ lang r s.
Proof.
  unfold ROpt. split.
  - intros H. inversion H as [| | | ? ? ? Hx | | |]; subst; [left; inversion Hx; reflexivity | right; assumption].
  - intros [->|H]; [apply lang_alt_l; constructor | apply lang_alt_r, H].
Qed.
Lemma lang_star_chr f s : lang (RStar (RChr f)) s <-> forallb f s = true.
Proof.
  split.
  - intros H. remember (RStar (RChr f)) as r eqn:Er. induction H as [| | | | |a | a s1 s2 H1 _ H2 IH2]; try discriminate.
    + reflexivity.
    + injection Er as ->. rewrite forallb_app, (IH2 eq_refl), andb_true_r.
      apply lang_chr_iff in H1. destruct H1 as (c & -> & Hc). simpl. rewrite Hc. reflexivity.
  - induction s as [|c s IH]; simpl; intros H; [constructor|]. apply andb_prop in H. destruct H as [H1 H2].
    apply (lang_star_cons (RChr f) [c] s); [constructor; exact H1 | apply IH, H2].
Qed.
Lemma lang_plus_chr f s : lang (RPlus (RChr f)) s <-> s <> [] /\ forallb f s = true.
Proof.
  unfold RPlus. rewrite lang_cat_iff. split.
  - intros (s1 & s2 & -> & H1 & H2). apply lang_chr_iff in H1. destruct H1 as (c & -> & Hc).
    apply lang_star_chr in H2. split; [discriminate|]. simpl. rewrite Hc. exact H2.
  - intros [Hs H]. destruct s as [|c s]; [congruence|]. simpl in H. apply andb_prop in H. destruct H as [H1 H2].
    exists [c], s. split; [reflexivity|]. split; [constructor; exact H1 | apply lang_star_chr, H2].
Qed.

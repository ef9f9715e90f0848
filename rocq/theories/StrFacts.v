(** * StrFacts: lemmas about [Str]. *)
From Coq Require Import Lia.
From Verif Require Import Str.
Open Scope nat_scope. Open Scope list_scope.

Lemma clen_pos c : 1 <= clen c.
Proof. unfold clen. repeat (destruct (N.ltb _ _)); lia. Qed.
Lemma clen_le4 c : clen c <= 4.
Proof. unfold clen. repeat (destruct (N.ltb _ _)); lia. Qed.

Lemma blen_app a b : blen (a ++ b) = blen a + blen b.
Proof. induction a as [|c a IH]; simpl; [reflexivity | rewrite IH; lia]. Qed.
Lemma blen_0 s : blen s = 0 -> s = [].
Proof. destruct s as [|c s]; [reflexivity|]. simpl. pose proof (clen_pos c). lia. Qed.
Lemma length_le_blen s : length s <= blen s.
Proof. induction s as [|c s IH]; simpl; [lia | pose proof (clen_pos c); lia]. Qed.
Lemma blen_rev s : blen (rev s) = blen s.
Proof. induction s as [|c s IH]; simpl; [reflexivity | rewrite blen_app, IH; simpl; lia]. Qed.

Lemma blen_firstn_le n s : blen (firstn n s) <= blen s.
Proof. rewrite <- (firstn_skipn n s) at 2. rewrite blen_app. lia. Qed.
Lemma blen_firstn_pos n s : 1 <= n -> s <> [] -> 1 <= blen (firstn n s).
Proof.
  destruct n as [|n]; [lia|]. destruct s as [|c s]; [congruence|].
  intros _ _. simpl. pose proof (clen_pos c). lia.
Qed.

(** Equations of [drop_b] / [take_b] on a character *)
Lemma drop_b_0 s : drop_b 0 s = Some s.
Proof. destruct s; reflexivity. Qed.
Lemma take_b_0 s : take_b 0 s = Some [].
Proof. destruct s; reflexivity. Qed.
Lemma drop_b_cons n c s : n <> 0 -> drop_b n (c :: s) = if n <? clen c then None else drop_b (n - clen c) s.
Proof. destruct n; [congruence | reflexivity]. Qed.
Lemma take_b_cons n c s :
  n <> 0 -> take_b n (c :: s) = if n <? clen c then None else
    match take_b (n - clen c) s with Some r => Some (c :: r) | None => None end.
Proof. destruct n; [congruence | reflexivity]. Qed.

Lemma drop_b_app a b : drop_b (blen a) (a ++ b) = Some b.
Proof.
  induction a as [|c a IH]; simpl blen; simpl app.
  - apply drop_b_0.
  - pose proof (clen_pos c). rewrite drop_b_cons by lia.
    destruct (Nat.ltb_spec (clen c + blen a) (clen c)); [lia|].
    replace (clen c + blen a - clen c) with (blen a) by lia. exact IH.
Qed.
Lemma take_b_app a b : take_b (blen a) (a ++ b) = Some a.
Proof.
  induction a as [|c a IH]; simpl blen; simpl app.
  - apply take_b_0.
  - pose proof (clen_pos c). rewrite take_b_cons by lia.
    destruct (Nat.ltb_spec (clen c + blen a) (clen c)); [lia|].
    replace (clen c + blen a - clen c) with (blen a) by lia. rewrite IH. reflexivity.
Qed.
Lemma drop_b_inv s : forall n r, drop_b n s = Some r -> exists p, s = p ++ r /\ blen p = n.
Proof.
  induction s as [|c s IH]; intros n r H.
  - destruct n; [|discriminate]. rewrite drop_b_0 in H. injection H as <-. exists []. split; reflexivity.
  - destruct n as [|n].
    + rewrite drop_b_0 in H. injection H as <-. exists []. split; reflexivity.
    + rewrite drop_b_cons in H by lia.
      destruct (Nat.ltb_spec (S n) (clen c)); [discriminate|].
      apply IH in H. destruct H as (p & -> & Hp). exists (c :: p). split; [reflexivity|]. simpl. lia.
Qed.
Lemma take_b_inv s : forall n r, take_b n s = Some r -> exists q, s = r ++ q /\ blen r = n.
Proof.
  induction s as [|c s IH]; intros n r H.
  - destruct n; [|discriminate]. rewrite take_b_0 in H. injection H as <-. exists []. split; reflexivity.
  - destruct n as [|n].
    + rewrite take_b_0 in H. injection H as <-. exists (c :: s). split; reflexivity.
    + rewrite take_b_cons in H by lia.
      destruct (Nat.ltb_spec (S n) (clen c)); [discriminate|].
      destruct (take_b (S n - clen c) s) as [r'|] eqn:E; [|discriminate].
      injection H as <-. apply IH in E. destruct E as (q & -> & Hq).
      exists q. split; [reflexivity|]. simpl. lia.
Qed.

(** ** Character boundaries and slices *)
(** Byte offset [n] of [s] is a character boundary: [str::is_char_boundary]. *)
Definition bnd (s : str) (n : nat) : Prop := exists p q, s = p ++ q /\ blen p = n.

Lemma bnd_0 s : bnd s 0.
Proof. exists [], s. split; reflexivity. Qed.
Lemma bnd_len s : bnd s (blen s).
Proof. exists s, []. rewrite app_nil_r. split; reflexivity. Qed.
Lemma bnd_app a b : bnd (a ++ b) (blen a).
Proof. exists a, b. split; reflexivity. Qed.
Lemma bnd_le s n : bnd s n -> n <= blen s.
Proof. intros (p & q & -> & <-). rewrite blen_app. lia. Qed.
Lemma bnd_app_r a b n : bnd b n -> bnd (a ++ b) (blen a + n).
Proof.
  intros (p & q & -> & <-). exists (a ++ p), q. rewrite <- app_assoc, blen_app. split; reflexivity.
Qed.

Lemma app_split (a b c d : str) :
  a ++ b = c ++ d -> blen a <= blen c -> exists m, c = a ++ m /\ b = m ++ d.
Proof.
  revert c. induction a as [|x a IH]; intros c E H.
  - exists c. split; [reflexivity|]. exact E.
  - destruct c as [|y c].
    + simpl in H. pose proof (clen_pos x). lia.
    + simpl in E. injection E as -> E. simpl in H.
      destruct (IH c E ltac:(lia)) as (m & -> & ->). exists m. split; reflexivity.
Qed.

Lemma slice_mid p m q : slice (p ++ m ++ q) (blen p) (blen p + blen m) = Some m.
Proof.
  unfold slice. destruct (Nat.ltb_spec (blen p + blen m) (blen p)); [lia|].
  rewrite drop_b_app. replace (blen p + blen m - blen p) with (blen m) by lia. apply take_b_app.
Qed.
Lemma slice_inv s a b m :
  slice s a b = Some m -> exists p q, s = p ++ m ++ q /\ blen p = a /\ b = a + blen m.
Proof.
  unfold slice. destruct (Nat.ltb_spec b a); [discriminate|].
  destruct (drop_b a s) as [r|] eqn:E; [|discriminate]. intros Hm.
  apply drop_b_inv in E. destruct E as (p & -> & Hp).
  apply take_b_inv in Hm. destruct Hm as (q & -> & Hq).
  exists p, q. repeat split; [assumption | lia].
Qed.
Lemma slice_some s a b : bnd s a -> bnd s b -> a <= b -> exists m, slice s a b = Some m.
Proof.
  intros (p & q & E1 & Hp) (p' & q' & E2 & Hp') Hab. subst s.
  destruct (app_split p q p' q' E2 ltac:(lia)) as (m & -> & ->).
  exists m. subst a b. rewrite blen_app. apply slice_mid.
Qed.
Lemma slice_bnd s a b m : slice s a b = Some m -> bnd s a /\ bnd s b /\ a <= b.
Proof.
  intros H. apply slice_inv in H. destruct H as (p & q & -> & <- & ->).
  repeat split; [apply bnd_app | | lia].
  exists (p ++ m), q. rewrite <- app_assoc, blen_app. split; reflexivity.
Qed.
Lemma slice_len s a b m : slice s a b = Some m -> a + blen m = b.
Proof. intros H. apply slice_inv in H. destruct H as (p & q & _ & _ & ->). reflexivity. Qed.
Lemma slice_all s : slice s 0 (blen s) = Some s.
Proof.
  pose proof (slice_mid [] s []) as H. rewrite app_nil_r in H. exact H.
Qed.
Lemma slice_refl s a : bnd s a -> slice s a a = Some [].
Proof.
  intros (p & q & -> & <-). pose proof (slice_mid p [] q) as H. simpl in H. rewrite Nat.add_0_r in H. exact H.
Qed.
Lemma slice_app s a b c m n :
  slice s a b = Some m -> slice s b c = Some n -> slice s a c = Some (m ++ n).
Proof.
  intros Hm Hn. apply slice_inv in Hm. destruct Hm as (p & q & -> & <- & ->).
  apply slice_inv in Hn. destruct Hn as (p' & q' & E & Hp' & ->).
  rewrite app_assoc in E.
  destruct (app_split _ _ _ _ E) as (k & Ek & Eq); [rewrite blen_app; lia|].
  assert (k = []) as ->.
  { apply blen_0. apply (f_equal blen) in Ek. rewrite !blen_app in Ek. lia. }
  simpl in Eq. subst q.
  pose proof (slice_mid p (m ++ n) q') as H. rewrite blen_app in H.
  replace (m ++ n ++ q') with ((m ++ n) ++ q') by (rewrite app_assoc; reflexivity).
  rewrite <- H. f_equal; lia.
Qed.

(** ** Equality, maps *)
Lemma streq_eq a b : streq a b = true <-> a = b.
Proof.
  revert b. induction a as [|x a IH]; intros [|y b]; simpl; split; intros H; try congruence.
  - apply andb_prop in H. destruct H as [H1 H2]. apply N.eqb_eq in H1. apply IH in H2. congruence.
  - injection H as -> ->. rewrite N.eqb_refl. simpl. apply IH. reflexivity.
Qed.
Lemma streq_refl a : streq a a = true.
Proof. apply streq_eq. reflexivity. Qed.
Lemma streq_neq a b : streq a b = false <-> a <> b.
Proof.
  split; intros H.
  - intros E. apply streq_eq in E. congruence.
  - destruct (streq a b) eqn:E; [|reflexivity]. apply streq_eq in E. congruence.
Qed.
Lemma str_eq_dec (a b : str) : {a = b} + {a <> b}.
Proof. destruct (streq a b) eqn:E; [left; apply streq_eq, E | right; apply streq_neq, E]. Qed.

Lemma assoc_set_eq {A} k (v : A) l : assoc k (assoc_set k v l) = Some v.
Proof.
  induction l as [|[k' v'] l IH]; simpl.
  - rewrite streq_refl. reflexivity.
  - destruct (streq k k') eqn:E; simpl; [rewrite streq_refl; reflexivity|].
    rewrite E. exact IH.
Qed.
Lemma assoc_set_neq {A} k k' (v : A) l : k <> k' -> assoc k (assoc_set k' v l) = assoc k l.
Proof.
  intros Hn. induction l as [|[k2 v2] l IH]; simpl.
  - apply streq_neq in Hn. rewrite Hn. reflexivity.
  - destruct (streq k' k2) eqn:E; simpl.
    + apply streq_eq in E. subst k2. apply streq_neq in Hn. rewrite Hn. reflexivity.
    + destruct (streq k k2); [reflexivity | exact IH].
Qed.

(** ** Whitespace trimming *)
Lemma trim_start_app s : exists w, s = w ++ trim_start s /\ forallb is_ws w = true.
Proof.
  induction s as [|c s IH]; simpl.
  - exists []. split; reflexivity.
  - destruct (is_ws c) eqn:E.
    + destruct IH as (w & Hw & Hf). exists (c :: w). simpl. rewrite E, <- Hw. split; [reflexivity | exact Hf].
    + exists []. split; reflexivity.
Qed.
Lemma trim_start_hd s : match trim_start s with c :: _ => is_ws c = false | [] => True end.
Proof.
  induction s as [|c s IH]; simpl; [exact I|].
  destruct (is_ws c) eqn:E; [exact IH | exact E].
Qed.
Lemma trim_start_no_ws c s : is_ws c = false -> trim_start (c :: s) = c :: s.
Proof. intros E. simpl. rewrite E. reflexivity. Qed.
Lemma trim_start_ws_app w s : forallb is_ws w = true -> trim_start (w ++ s) = trim_start s.
Proof.
  induction w as [|c w IH]; simpl; [reflexivity|].
  intros H. apply andb_prop in H. destruct H as [Hc Hw]. rewrite Hc. apply IH, Hw.
Qed.
Lemma trim_start_idem s : trim_start (trim_start s) = trim_start s.
Proof.
  pose proof (trim_start_hd s) as H. destruct (trim_start s) as [|c t]; [reflexivity|].
  apply trim_start_no_ws, H.
Qed.
Lemma forallb_rev {A} (f : A -> bool) l : forallb f (rev l) = forallb f l.
Proof.
  induction l as [|x l IH]; simpl; [reflexivity|].
  rewrite forallb_app, IH. simpl. rewrite andb_true_r. apply andb_comm.
Qed.
Lemma trim_end_app s : exists w, s = trim_end s ++ w /\ forallb is_ws w = true.
Proof.
  destruct (trim_start_app (rev s)) as (w & Hw & Hf). exists (rev w). split.
  - unfold trim_end. rewrite <- (rev_involutive s) at 1. rewrite Hw at 1. apply rev_app_distr.
  - rewrite forallb_rev. exact Hf.
Qed.
Lemma trim_end_idem s : trim_end (trim_end s) = trim_end s.
Proof. unfold trim_end. rewrite rev_involutive, trim_start_idem. reflexivity. Qed.
Lemma assoc_set_in {A} k (v : A) l k' v' : In (k', v') (assoc_set k v l) -> (k' = k /\ v' = v) \/ In (k', v') l.
Proof.
  induction l as [|[a b] l IH]; simpl.
  - intros [H|[]]. injection H as <- <-. auto.
  - destruct (streq k a); simpl; intros [H|H]; auto.
    + injection H as <- <-. auto.
    + destruct (IH H) as [X|X]; auto.
Qed.
Lemma assoc_del_in {A} k (l : list (str * A)) k' v' : In (k', v') (assoc_del k l) -> In (k', v') l.
Proof.
  induction l as [|[a b] l IH]; simpl; [auto|]. destruct (streq k a); simpl; intros H; [auto|]. destruct H as [H|H]; auto.
Qed.

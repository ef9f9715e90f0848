(** * LookupFacts: fields, paths and variables. *)
From Coq Require Import Lia String.
From Verif Require Import Str Json Ast Parser Render Helpers Registry Spec_Values Spec_Helpers StrFacts ValueFacts.
Open Scope nat_scope. Open Scope list_scope.

Lemma digits_acc_fold s : forall a, digits_acc a s = fold_left (fun a c => a * 10 + (c - 48))%N s a.
Proof. induction s as [|c s IH]; intros a; [reflexivity|]. simpl. apply IH. Qed.
Lemma digits_val_decimal s : digits_val s = decimal_value s.
Proof. apply digits_acc_fold. Qed.
Lemma is_digit_digit c : is_digit c = true <-> digit c.
Proof. unfold is_digit, digit. rewrite andb_true_iff, !N.leb_le. tauto. Qed.
Lemma all_digits_spec s : all_digits s = true <-> Forall digit s.
Proof.
  unfold all_digits. rewrite forallb_forall, Forall_forall. split; intros H c Hc; apply is_digit_digit, H, Hc.
Qed.
Lemma index_text_fun s i j : index_text s i -> index_text s j -> i = j.
Proof.
  intros (d & H & Hn & Hd & _ & ->) (d' & H' & Hn' & Hd' & _ & ->). 
  assert (X : forall d, Forall digit (43%N :: d) -> False) by (intros x Hx; inversion Hx as [|? ? Hy]; subst; unfold digit in Hy; lia).
  destruct H as [->| ->], H' as [H'|H']; subst; try reflexivity; try (exfalso; eapply X; eassumption); congruence.
Qed.
Lemma parse_usize_spec s n : parse_usize s = Some n <-> (index_text s (N.to_nat n)).
Proof.
  unfold parse_usize, index_text. change (2 ^ 64)%N with 18446744073709551616%N. split.
  - intros H. set (ds := match s with c :: s' => if (c =? 43)%N then s' else s | [] => s end) in *.
    assert (Hs : s = ds \/ s = 43%N :: ds).
    { subst ds. destruct s as [|c s']; [left; reflexivity|]. destruct (N.eqb_spec c 43) as [->|]; [right | left]; reflexivity. }
    exists ds. split; [exact Hs|]. destruct ds as [|c r] eqn:Eds; [discriminate|].
    destruct (all_digits (c :: r)) eqn:Ha; [|discriminate]. rewrite digits_val_decimal in H.
    destruct (N.ltb_spec (decimal_value (c :: r)) 18446744073709551616); [|discriminate]. injection H as <-.
    split; [discriminate|]. split; [apply all_digits_spec, Ha|]. split; [assumption | reflexivity].
  - intros (ds & Hs & Hne & Hd & Hlt & Hi). apply N2Nat.inj in Hi.
    assert (E : match s with c :: s' => if (c =? 43)%N then s' else s | [] => s end = ds).
    { destruct Hs as [->| ->]; [|reflexivity]. destruct ds as [|c r]; [reflexivity|]. destruct (N.eqb_spec c 43) as [->|]; [|reflexivity].
      inversion Hd as [|? ? Hc]; subst. unfold digit in Hc. lia. }
    rewrite E. destruct ds as [|c r] eqn:Eds; [congruence|]. apply all_digits_spec in Hd. rewrite Hd, digits_val_decimal.
    apply N.ltb_lt in Hlt. rewrite Hlt. congruence.
Qed.
Lemma assoc_spec {A} k (l : list (str * A)) v :
  assoc k l = Some v <-> exists pre post, l = pre ++ (k, v) :: post /\ ~ In k (map fst pre).
Proof.
  split.
  - induction l as [|[k' v'] l IH]; simpl; [discriminate|]. destruct (streq k k') eqn:E.
    + intros H. injection H as ->. apply streq_eq in E. subst k'. exists [], l. split; [reflexivity | intros []].
    + intros H. destruct (IH H) as (pre & post & -> & Hn). exists ((k', v') :: pre), post. split; [reflexivity|].
      intros [Hk|Hk]; [simpl in Hk; subst k'; rewrite streq_refl in E; discriminate | exact (Hn Hk)].
  - intros (pre & post & -> & Hn). induction pre as [|[k' v'] pre IH]; simpl.
    + rewrite streq_refl. reflexivity.
    + destruct (streq k k') eqn:E; [apply streq_eq in E; subst; exfalso; apply Hn; left; reflexivity|].
      apply IH. intros H. apply Hn. right. exact H.
Qed.
Lemma find_field_spec v k w : find_field v k = Some w <-> has_field v k w.
Proof.
  destruct v as [|b|n|s|l|l]; cbn [find_field]; (split; [|intros H; inversion H; subst]); try discriminate.
  - destruct (parse_usize k) as [n|] eqn:E; [|discriminate]. destruct (N.ltb_spec n (N.of_nat (length l))); [|discriminate].
    intros H'. apply parse_usize_spec in E. econstructor; eassumption.
  - assert (E : parse_usize k = Some (N.of_nat i)) by (apply parse_usize_spec; rewrite Nat2N.id; assumption).
    rewrite E, Nat2N.id. assert (i < length l) by (apply nth_error_Some; congruence).
    replace (N.of_nat i <? N.of_nat (length l))%N with true by (symmetry; apply N.ltb_lt; lia). assumption.
  - intros H. apply assoc_spec in H. destruct H as (pre & post & -> & Hn). constructor. exact Hn.
  - apply assoc_spec. eexists; eexists; split; [reflexivity | assumption].
Qed.
Lemma find_go_spec ks : ks <> [] -> forall v w, find_parts_go v ks = Some w <-> follow v ks w.
Proof.
  induction ks as [|k ks IH]; intros Hne v w; [congruence|]. cbn [find_parts_go]. split.
  - destruct (find_field v k) as [u|] eqn:E; [|discriminate]. apply find_field_spec in E. destruct ks as [|k' ks].
    + simpl. intros H. injection H as <-. constructor. exact E.
    + intros H. apply IH in H; [|discriminate]. econstructor; eassumption.
  - intros H. inversion H as [v0 k0 w0 Hf|v0 k0 u ks0 w0 Hf Hw]; subst.
    + apply find_field_spec in Hf. rewrite Hf. reflexivity.
    + apply find_field_spec in Hf. rewrite Hf. apply IH; [|exact Hw]. intros ->. inversion Hw.
Qed.
Lemma find_parts_spec parts doc w : find_parts parts doc = Some w <-> follow doc parts w.
Proof.
  assert (X : find_parts parts doc = match doc with JObj _ | JArr _ => match parts with [] => None | _ => find_parts_go doc parts end | _ => None end) by reflexivity.
  rewrite X. clear X. destruct parts as [|k ks].
  - destruct doc; (split; [discriminate | intros H; inversion H]).
  - assert (Y : find_parts_go doc (k :: ks) = Some w <-> follow doc (k :: ks) w) by (apply find_go_spec; discriminate).
    destruct doc; try exact Y; (split; [discriminate|]; intros H; apply Y in H; discriminate H).
Qed.
Lemma find_none {A} (o : option A) (P : A -> Prop) : (forall w, o = Some w <-> P w) -> o = None -> forall w, ~ P w.
Proof. intros H E w Hw. apply H in Hw. congruence. Qed.
Lemma find_in_scope_spec parts s w : find_in_scope parts s = Some w <-> scope_has parts s w.
Proof.
  unfold find_in_scope, scope_has.
  assert (L : forall x, find_parts parts (JObj (sc_locals s)) = Some x <-> in_locals parts s x) by (intros x; apply find_parts_spec).
  destruct (find_parts parts (JObj (sc_locals s))) as [v|] eqn:E.
  - split.
    + intros H. injection H as <-. left. apply L. reflexivity.
    + intros [H|[H _]]; [apply L in H; congruence|]. exfalso. apply (H v), L. reflexivity.
  - assert (N : forall x, ~ in_locals parts s x) by (intros x Hx; apply L in Hx; discriminate).
    assert (B : match sc_value s with Some b => find_parts parts b | None => None end = Some w <-> in_base parts s w).
    { unfold in_base. destruct (sc_value s) as [b|]; [|split; [discriminate | intros (b & H & _); discriminate]].
      rewrite find_parts_spec. split; [intros H; exists b; auto | intros (b' & H & Hw); congruence]. }
    rewrite B. split; [intros H; right; split; assumption|]. intros [H|[_ H]]; [exfalso; eapply N; exact H | exact H].
Qed.
Lemma find_in_scopes_spec parts data ss w : find_in_scopes parts data ss = Some w <-> visible parts data ss w.
Proof.
  induction ss as [|s ss IH]; cbn [find_in_scopes].
  - rewrite find_parts_spec. split; [intros H; constructor; exact H | intros H; inversion H; assumption].
  - pose proof (fun x => find_in_scope_spec parts s x) as S. destruct (find_in_scope parts s) as [v|] eqn:E.
    + split.
      * intros H. injection H as <-. apply visible_here, S. reflexivity.
      * intros H. inversion H as [|? ? ? H1|? ? ? H1 H2]; subst; [apply S in H1; congruence|]. exfalso. apply (H1 v), S. reflexivity.
    + rewrite IH. split.
      * intros H. apply visible_outer; [|exact H]. intros x Hx. apply S in Hx. discriminate.
      * intros H. inversion H as [|? ? ? H1|? ? ? H1 H2]; subst; [apply S in H1; discriminate | exact H2].
Qed.
Lemma this_value_spec data ss v : this_value data ss = v <-> this_is data ss v.
Proof.
  unfold this_value. destruct ss as [|s ss].
  - split; [intros <-; constructor | intros H; inversion H; reflexivity].
  - destruct (sc_value s) eqn:E; split; try (intros <-; constructor; assumption); intros H; inversion H; congruence.
Qed.
Lemma mlookup_ok en src p st parts (P : json -> Prop) : pa_absolute p = false ->
  comp_values src (pa_comps p) = Some parts ->
  (forall r, lookup src p (en_root en) (r_scopes st) = Some r -> forall w, r = Some w <-> P w) ->
  looks_up en src p st P.
Proof.
  intros Ha Hc H. unfold looks_up, mlookup, bind, get, need.
  destruct (lookup src p (en_root en) (r_scopes st)) as [r|] eqn:E.
  - exists r. split; [reflexivity | apply H; reflexivity].
  - unfold lookup in E. rewrite Ha, Hc in E. discriminate.
Qed.
Lemma comp_values_length src cs : forall l, comp_values src cs = Some l -> length cs = length l.
Proof.
  induction cs as [|c cs IH]; intros l H; simpl in H; [injection H as <-; reflexivity|].
  destruct (comp_value src c); [|discriminate]. destruct (comp_values src cs) as [vs|]; [|discriminate].
  injection H as <-. simpl. f_equal. apply IH. reflexivity.
Qed.

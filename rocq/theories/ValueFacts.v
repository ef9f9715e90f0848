(** * ValueFacts: escaping, truthiness, numbers, JSON text. *)
From Coq Require Import Lia String DecimalFacts DecimalN DecimalPos.
From Verif Require Import Str Json Ast Parser Render Helpers Spec_Values StrFacts.
Open Scope nat_scope. Open Scope list_scope.

(** ** HTML *)
Lemma html_app a b : html (a ++ b) = html a ++ html b.
Proof. apply flat_map_app. Qed.
Lemma html_c_cases c : (special c /\ exists e, In (e, c) entities /\ html_c c = e) \/ (~ special c /\ html_c c = [c]).
Proof.
  unfold html_c, special, entities. simpl.
  destruct (N.eqb_spec c 60) as [->|H1]; [left; split; [tauto|eexists; split; [|reflexivity]; tauto]|].
  destruct (N.eqb_spec c 62) as [->|H2]; [left; split; [tauto|eexists; split; [|reflexivity]; tauto]|].
  destruct (N.eqb_spec c 34) as [->|H3]; [left; split; [tauto|eexists; split; [|reflexivity]; tauto]|].
  destruct (N.eqb_spec c 38) as [->|H4]; [left; split; [tauto|eexists; split; [|reflexivity]; tauto]|].
  destruct (N.eqb_spec c 39) as [->|H5]; [left; split; [tauto|eexists; split; [|reflexivity]; tauto]|].
  right. split; [|reflexivity]. intros H. repeat destruct H as [H|H]; congruence.
Qed.
Lemma html_safe s : safe_html (html s).
Proof.
  induction s as [|c s IH]; [constructor|]. change (html (c :: s)) with (html_c c ++ html s).
  destruct (html_c_cases c) as [(_ & e & He & ->)|(Hn & ->)]; [eapply safe_entity; eassumption | apply safe_char; assumption].
Qed.
Lemma html_shows s : shows (html s) s.
Proof.
  induction s as [|c s IH]; [constructor|]. change (html (c :: s)) with (html_c c ++ html s).
  destruct (html_c_cases c) as [(_ & e & He & ->)|(Hn & ->)]; [eapply shows_entity; eassumption | apply shows_char; assumption].
Qed.
Lemma entity_inj e c e' c' s s' : In (e, c) entities -> In (e', c') entities -> e ++ s = e' ++ s' -> c = c' /\ s = s'.
Proof.
  intros H H' E. unfold entities in H, H'. simpl in H, H'.
  repeat destruct H as [H|H]; try contradiction; injection H as <- <-;
    repeat destruct H' as [H'|H']; try contradiction; injection H' as <- <-;
    simpl in E; try discriminate E; (split; [reflexivity|]); congruence.
Qed.
Lemma entity_amp e c : In (e, c) entities -> exists t, e = 38%N :: t.
Proof. unfold entities. simpl. intros H. repeat destruct H as [H|H]; try contradiction; injection H as <- <-; eexists; reflexivity. Qed.
Lemma special_amp : special 38%N.
Proof. unfold special. simpl. tauto. Qed.
Lemma shows_det a : forall r1 r2, shows a r1 -> shows a r2 -> r1 = r2.
Proof.
  intros r1 r2 H. revert r2. induction H as [|c s r Hn Hs IH|e c s r He Hs IH]; intros r2 H2.
  - inversion H2 as [| |e c s r He Hs E]; [reflexivity|]. destruct (entity_amp _ _ He) as [t ->]. discriminate E.
  - inversion H2 as [|c' s' r' Hn' Hs' E1 E2|e c' s' r' He Hs' E1 E2]; subst; [f_equal; apply IH; assumption|].
    destruct (entity_amp _ _ He) as [t ->]. injection E1 as <- _. exfalso. apply Hn, special_amp.
  - inversion H2 as [E1|c' s' r' Hn' Hs' E1 E2|e' c' s' r' He' Hs' E1 E2]; subst.
    + destruct (entity_amp _ _ He) as [t ->]. discriminate E1.
    + destruct (entity_amp _ _ He) as [t ->]. injection E1 as -> _. exfalso. apply Hn', special_amp.
    + destruct (entity_inj _ _ _ _ _ _ He' He E1) as [-> ->]. f_equal. apply IH, Hs'.
Qed.
Lemma html_inj a b : html a = html b -> a = b.
Proof. intros E. apply (shows_det (html a)); [apply html_shows | rewrite E; apply html_shows]. Qed.
Lemma html_plain s : Forall (fun c => ~ special c) s -> html s = s.
Proof.
  induction 1 as [|c s Hc Hs IH]; [reflexivity|]. change (html (c :: s)) with (html_c c ++ html s). rewrite IH.
  destruct (html_c_cases c) as [[Hs' _]|(_ & ->)]; [contradiction | reflexivity].
Qed.
Lemma safe_no_angle s : safe_html s -> ~ In 60%N s /\ ~ In 62%N s /\ ~ In 34%N s /\ ~ In 39%N s.
Proof.
  induction 1 as [|c s Hc Hs (H1 & H2 & H3 & H4)|e c s He Hs (H1 & H2 & H3 & H4)]; [simpl; tauto| |].
  - unfold special in Hc. simpl in Hc. simpl. repeat split; intros [E|E]; subst; tauto.
  - assert (X : forall x, In x [60; 62; 34; 39]%N -> ~ In x e).
    { intros x Hx Hi. unfold entities in He. simpl in He. repeat destruct He as [He|He]; try contradiction; injection He as <- <-;
        simpl in Hx, Hi; repeat destruct Hx as [Hx|Hx]; try contradiction; subst x; repeat destruct Hi as [Hi|Hi]; try contradiction; discriminate Hi. }
    repeat split; intros Hi; apply in_app_or in Hi; destruct Hi as [Hi|Hi]; try tauto; (eapply X; [|exact Hi]; simpl; tauto).
Qed.

(** ** Truthiness *)
Lemma truthy_falsy v : is_truthy v = false <-> falsy v.
Proof.
  unfold falsy. split.
  - destruct v as [|b|n|s|l|l]; simpl; try discriminate; intros H.
    + left; reflexivity.
    + right; left; congruence.
    + right; right; right. exists n. split; [reflexivity|]. destruct n as [n|z|f]; simpl in *.
      * apply negb_false_iff, N.eqb_eq in H. exact H.
      * apply negb_false_iff, Z.eqb_eq in H. exact H.
      * apply negb_false_iff in H. destruct f as [s|s| |s m e]; try discriminate H.
        -- exists s. reflexivity.
        -- destruct s; discriminate H.
        -- destruct s; discriminate H.
    + right; right; left. destruct s as [|c s]; [reflexivity|]. simpl in H. pose proof (clen_pos c).
      apply Nat.ltb_ge in H. lia.
  - intros [->|[->|[->|(n & -> & H)]]]; try reflexivity. simpl. destruct n as [n|z|f]; simpl in H.
    + subst. reflexivity.
    + subst. reflexivity.
    + destruct H as [s ->]. destruct s; reflexivity.
Qed.

(** ** Decimal numbers *)
Lemma digits_acc_pos d : forall acc, digits_acc (Npos acc) (uint_str d) = Npos (Pos.of_uint_acc d acc).
Proof.
  assert (X : forall acc k, (k < 10)%N -> (Npos acc * 10 + k)%N = Npos (match k with N0 => Pos.mul 10 acc | Npos q => Pos.add q (Pos.mul 10 acc) end)).
  { intros acc [|q] _; lia. }
  induction d; intros acc; cbn [uint_str digits_acc Pos.of_uint_acc]; [reflexivity|..].
  all: rewrite <- IHd; f_equal; lia.
Qed.
Lemma digits_val_uint d : digits_val (uint_str d) = N.of_uint d.
Proof.
  unfold digits_val. change (N.of_uint d) with (Pos.of_uint d).
  induction d; cbn [uint_str digits_acc Pos.of_uint]; try reflexivity; [exact IHd|..]; rewrite <- digits_acc_pos; reflexivity.
Qed.
Lemma digits_val_N n : digits_val (N_str n) = n.
Proof. unfold N_str. rewrite digits_val_uint. apply DecimalN.Unsigned.of_to. Qed.
Lemma uint_all_digits d : all_digits (uint_str d) = true.
Proof. unfold all_digits. induction d; simpl; try reflexivity; assumption. Qed.
Lemma N_str_digits n : all_digits (N_str n) = true.
Proof. apply uint_all_digits. Qed.
(** no leading zero *)
Lemma unorm_head d : forall x, Decimal.unorm d = Decimal.D0 x -> x = Decimal.Nil.
Proof.
  induction d; intros x H; try discriminate H.
  - injection H as <-. reflexivity.
  - rewrite unorm_D0 in H. apply IHd, H.
Qed.
Lemma N_str_head n : exists d r, N_str n = d :: r /\ is_digit d = true /\ (d = 48%N -> r = []).
Proof.
  unfold N_str. pose proof (DecimalN.Unsigned.to_of (N.to_uint n)) as E. rewrite DecimalN.Unsigned.of_to in E.
  pose proof (unorm_nonnil (N.to_uint n)) as Hn. rewrite <- E in Hn.
  destruct (N.to_uint n) as [|d|d|d|d|d|d|d|d|d|d] eqn:Eu; cbn [uint_str];
    try (eexists; eexists; split; [reflexivity|]; split; [reflexivity|]; intros H; discriminate H).
  - congruence.
  - exists 48%N, (uint_str d). repeat split. intros _. symmetry in E. apply unorm_head in E. subst d. reflexivity.
Qed.
Lemma parse_number_N other n : (n < 18446744073709551616)%N -> parse_number other (N_str n) = Some (PosInt n).
Proof.
  intros H. destruct (N_str_head n) as (d & r & E & Hd & Hz). unfold parse_number.
  pose proof (N_str_digits n) as Ha. pose proof (digits_val_N n) as Hv. rewrite E in Ha, Hv |- *.
  assert (E45 : (d =? 45)%N = false) by (apply N.eqb_neq; intros ->; discriminate Hd). rewrite E45.
  assert (E0 : (d =? 48)%N && match r with c :: _ => is_digit c | [] => false end = false).
  { destruct (N.eqb_spec d 48) as [->|]; [rewrite (Hz eq_refl); reflexivity | reflexivity]. }
  rewrite E0, Ha, Hv. apply N.ltb_lt in H. rewrite H. reflexivity.
Qed.
Lemma parse_number_Z other p : (Npos p <= 9223372036854775808)%N -> parse_number other (Z_str (Zneg p)) = Some (NegInt (Zneg p)).
Proof.
  intros H. destruct (N_str_head (Npos p)) as (d & r & E & Hd & Hz). unfold parse_number, Z_str.
  pose proof (N_str_digits (Npos p)) as Ha. pose proof (digits_val_N (Npos p)) as Hv.
  rewrite E in Ha, Hv |- *. change ((45 =? 45)%N) with true. cbv iota beta.
  assert (E0 : (d =? 48)%N && match r with c :: _ => is_digit c | [] => false end = false).
  { destruct (N.eqb_spec d 48) as [->|]; [rewrite (Hz eq_refl); reflexivity | reflexivity]. }
  rewrite E0, Ha, Hv. apply N.leb_le in H. rewrite H. reflexivity.
Qed.

(** ** JSON text *)
Definition ws_str (w : str) : Prop := Forall (fun c => json_ws c = true) w.
Section Json.
Variable num : str -> option number.
Variable fstr : spec_float -> str.
Definition number_ok (n : number) : Prop :=
  num (number_str fstr n) = Some n
  /\ Forall (fun c => num_char c = true) (number_str fstr n)
  /\ exists c r, number_str fstr n = c :: r /\ (is_digit c = true \/ c = 45%N).

(** the texts the printers produce *)
Inductive prints : json -> str -> Prop :=
| pr_null : prints JNull (lit "null")
| pr_true : prints (JBool true) (lit "true")
| pr_false : prints (JBool false) (lit "false")
| pr_num n : number_ok n -> prints (JNum n) (number_str fstr n)
| pr_str s : prints (JStr s) (json_string s)
| pr_arr0 : prints (JArr []) (lit "[]")
| pr_arr l w s : ws_str w -> prints_items l s -> prints (JArr l) ([91%N] ++ w ++ s ++ [93%N])
| pr_obj0 : prints (JObj []) (lit "{}")
| pr_obj l w s : ws_str w -> prints_members l s -> prints (JObj l) ([123%N] ++ w ++ s ++ [125%N])
with prints_items : list json -> str -> Prop :=
| pi_one v s w : prints v s -> ws_str w -> prints_items [v] (s ++ w)
| pi_cons v s w l t : prints v s -> ws_str w -> prints_items l t -> prints_items (v :: l) (s ++ [44%N] ++ w ++ t)
with prints_members : list (str * json) -> str -> Prop :=
| pm_one k v w s w' : prints v s -> ws_str w -> ws_str w' -> prints_members [(k, v)] (json_string k ++ [58%N] ++ w ++ s ++ w')
| pm_cons k v w s w' l t : prints v s -> ws_str w -> ws_str w' -> prints_members l t ->
    prints_members ((k, v) :: l) (json_string k ++ [58%N] ++ w ++ s ++ [44%N] ++ w' ++ t).
Scheme prints_mut := Induction for prints Sort Prop
with items_mut := Induction for prints_items Sort Prop
with members_mut := Induction for prints_members Sort Prop.
Combined Scheme prints_all from prints_mut, items_mut, members_mut.

Lemma skip_ws_app w s : ws_str w -> skip_ws (w ++ s) = skip_ws s.
Proof. induction 1 as [|c w Hc Hw IH]; simpl; [reflexivity|]. rewrite Hc. exact IH. Qed.
Lemma skip_ws_hd c s : json_ws c = false -> skip_ws (c :: s) = c :: s.
Proof. simpl. intros ->. reflexivity. Qed.

Lemma hexdigit_val n : (n < 16)%N -> hexval (hexdigit n) = Some n.
Proof.
  intros H. unfold hexdigit. destruct (N.ltb_spec n 10).
  - unfold hexval. replace ((48 <=? 48 + n)%N && (48 + n <=? 57)%N) with true.
    + f_equal. lia.
    + symmetry. apply andb_true_iff. split; apply N.leb_le; lia.
  - unfold hexval. replace ((48 <=? 87 + n)%N && (87 + n <=? 57)%N) with false.
    + replace ((97 <=? 87 + n)%N && (87 + n <=? 102)%N) with true; [f_equal; lia|].
      symmetry. apply andb_true_iff. split; apply N.leb_le; lia.
    + symmetry. apply andb_false_iff. right. apply N.leb_gt. lia.
Qed.
Lemma read_chars_escape s rest : read_chars (flat_map json_escape_c s ++ 34%N :: rest) = Some (s, rest).
Proof.
  induction s as [|c s IH]; [reflexivity|]. cbn [flat_map]. rewrite <- app_assoc.
  assert (X : forall e r, In (e, r) [(34, 34); (92, 92); (98, 8); (116, 9); (110, 10); (102, 12); (114, 13)]%N ->
    read_chars ([92%N; e] ++ flat_map json_escape_c s ++ 34%N :: rest) = Some (r :: s, rest)).
  { intros e r H. simpl in H. repeat destruct H as [H|H]; try contradiction; injection H as <- <-; cbn [app read_chars]; simpl (_ =? _)%N; rewrite IH; reflexivity. }
  unfold json_escape_c at 1.
  destruct (N.eqb_spec c 34) as [->|H1]; [apply X; simpl; tauto|].
  destruct (N.eqb_spec c 92) as [->|H2]; [apply X; simpl; tauto|].
  destruct (N.eqb_spec c 8) as [->|H3]; [apply X; simpl; tauto|].
  destruct (N.eqb_spec c 9) as [->|H4]; [apply X; simpl; tauto|].
  destruct (N.eqb_spec c 10) as [->|H5]; [apply X; simpl; tauto|].
  destruct (N.eqb_spec c 12) as [->|H6]; [apply X; simpl; tauto|].
  destruct (N.eqb_spec c 13) as [->|H7]; [apply X; simpl; tauto|].
  destruct (N.ltb_spec c 32) as [H|H].
  - cbn [app read_chars]. simpl (92 =? 34)%N. simpl (92 =? 92)%N. cbv iota. simpl (117 =? _)%N. cbv iota.
    rewrite !hexdigit_val.
    + change (hexval 48%N) with (Some 0%N). cbv iota. rewrite IH. do 2 f_equal. f_equal.
      rewrite (N.div_mod c 16) at 3 by lia. lia.
    + apply N.mod_lt. lia.
    + apply N.div_lt_upper_bound; lia.
  - cbn [app read_chars]. apply N.eqb_neq in H1. apply N.eqb_neq in H2. rewrite H1, H2.
    replace (c <? 32)%N with false by (symmetry; apply N.ltb_ge; exact H). rewrite IH. reflexivity.
Qed.
Lemma read_string k rest : exists r, json_string k ++ rest = 34%N :: r /\ read_chars r = Some (k, rest).
Proof.
  exists (flat_map json_escape_c k ++ 34%N :: rest). split; [|apply read_chars_escape].
  unfold json_string. rewrite <- !app_assoc. reflexivity.
Qed.
Lemma read_lexeme_app l rest : Forall (fun c => num_char c = true) l ->
  match rest with c :: _ => num_char c = false | [] => True end -> read_lexeme (l ++ rest) = (l, rest).
Proof.
  intros H Hr. induction H as [|c l Hc Hl IH]; simpl.
  - destruct rest as [|c r]; [reflexivity|]. simpl. rewrite Hr. reflexivity.
  - rewrite Hc, IH. reflexivity.
Qed.
Definition stops (rest : str) : Prop := match rest with c :: _ => num_char c = false | [] => True end.
Definition starts (s : str) : Prop := exists c r, s = c :: r /\ json_ws c = false /\ c <> 93%N /\ c <> 125%N.
Lemma prints_starts v s : prints v s -> starts s.
Proof.
  intros H. inversion H; subst; try (eexists; eexists; split; [reflexivity|]; split; [reflexivity|]; split; discriminate).
  destruct H0 as (_ & _ & c & r & -> & Hc). exists c, r. split; [reflexivity|].
  destruct Hc as [Hc| ->]; [|repeat split; discriminate]. unfold is_digit in Hc. apply andb_true_iff in Hc.
  destruct Hc as [H1 H2]. apply N.leb_le in H1, H2. unfold json_ws. repeat split; try lia.
  repeat (apply orb_false_iff; split); apply N.eqb_neq; lia.
Qed.
Lemma items_starts l s : prints_items l s -> starts s.
Proof.
  intros H. inversion H as [v x w Hp Hw|v x w l' t Hp Hw Hi]; subst; destruct (prints_starts _ _ Hp) as (c & r & -> & Hc);
    exists c; eexists; (split; [reflexivity | exact Hc]).
Qed.
Lemma members_starts l s : prints_members l s -> starts s /\ exists r, s = 34%N :: r.
Proof.
  intros H. inversion H; subst; (split; [exists 34%N; eexists; (split; [reflexivity|]; repeat split; discriminate) | eexists; reflexivity]).
Qed.
Lemma read_json_eq fuel s : read_json num (S fuel) s =
      match skip_ws s with
      | [] => None
      | c :: r =>
          if (c =? 34)%N then match read_chars r with Some (v, rest) => Some (JStr v, rest) | None => None end
          else if (c =? 91)%N then
            match skip_ws r with
            | d :: r' => if (d =? 93)%N then Some (JArr [], r')
                         else match read_items num fuel (d :: r') with Some (l, rest) => Some (JArr l, rest) | None => None end
            | [] => None
            end
          else if (c =? 123)%N then
            match skip_ws r with
            | d :: r' => if (d =? 125)%N then Some (JObj [], r')
                         else match read_members num fuel (d :: r') with Some (l, rest) => Some (JObj l, rest) | None => None end
            | [] => None
            end
          else
            match starts_with (lit "null") (c :: r), starts_with (lit "true") (c :: r), starts_with (lit "false") (c :: r) with
            | true, _, _ => Some (JNull, skipn 4 (c :: r))
            | _, true, _ => Some (JBool true, skipn 4 (c :: r))
            | _, _, true => Some (JBool false, skipn 5 (c :: r))
            | _, _, _ => let (l, rest) := read_lexeme (c :: r) in
                         match num l with Some n => Some (JNum n, rest) | None => None end
            end
      end.
Proof. reflexivity. Qed.
Lemma read_items_eq fuel s : read_items num (S fuel) s =
      match read_json num fuel s with
      | Some (v, rest) =>
          match skip_ws rest with
          | c :: r => if (c =? 44)%N then
                        match read_items num fuel r with Some (l, rest) => Some (v :: l, rest) | None => None end
                      else if (c =? 93)%N then Some ([v], r) else None
          | [] => None
          end
      | None => None
      end.
Proof. reflexivity. Qed.
Lemma read_members_eq fuel s : read_members num (S fuel) s =
      match skip_ws s with
      | q :: r =>
          if (q =? 34)%N then
            match read_chars r with
            | Some (k, r1) =>
                match skip_ws r1 with
                | col :: r2 =>
                    if (col =? 58)%N then
                      match read_json num fuel r2 with
                      | Some (v, rest) =>
                          match skip_ws rest with
                          | c :: r3 => if (c =? 44)%N then
                                         match read_members num fuel r3 with Some (l, rest) => Some ((k, v) :: l, rest) | None => None end
                                       else if (c =? 125)%N then Some ([(k, v)], r3) else None
                          | [] => None
                          end
                      | None => None
                      end
                    else None
                | [] => None
                end
            | None => None
            end
          else None
      | [] => None
      end.
Proof. reflexivity. Qed.
Lemma read_json_ws fuel w s : ws_str w -> read_json num fuel (w ++ s) = read_json num fuel s.
Proof. intros H. destruct fuel; [reflexivity|]. rewrite !read_json_eq, skip_ws_app by exact H. reflexivity. Qed.
Lemma read_items_ws fuel w s : ws_str w -> read_items num fuel (w ++ s) = read_items num fuel s.
Proof. intros H. destruct fuel; [reflexivity|]. rewrite !read_items_eq, read_json_ws by exact H. reflexivity. Qed.
Lemma read_members_ws fuel w s : ws_str w -> read_members num fuel (w ++ s) = read_members num fuel s.
Proof. intros H. destruct fuel; [reflexivity|]. rewrite !read_members_eq, skip_ws_app by exact H. reflexivity. Qed.
Lemma ws_stops w c rest : ws_str w -> num_char c = false -> stops (w ++ c :: rest).
Proof.
  intros H Hc. destruct H as [|d w Hd Hw]; [exact Hc|]. simpl. unfold json_ws in Hd.
  repeat (apply orb_true_iff in Hd; destruct Hd as [Hd|Hd]); apply N.eqb_eq in Hd; subst d; reflexivity.
Qed.
Lemma prints_reads :
  (forall v s, prints v s -> exists n, forall fuel rest, n <= fuel -> stops rest -> read_json num fuel (s ++ rest) = Some (v, rest))
  /\ (forall l s, prints_items l s -> exists n, forall fuel rest, n <= fuel -> read_items num fuel (s ++ 93%N :: rest) = Some (l, rest))
  /\ (forall l s, prints_members l s -> exists n, forall fuel rest, n <= fuel -> read_members num fuel (s ++ 125%N :: rest) = Some (l, rest)).
Proof.
  apply prints_all.
  - exists 1. intros [|fuel] rest Hf Hs; [lia|]. reflexivity.
  - exists 1. intros [|fuel] rest Hf Hs; [lia|]. reflexivity.
  - exists 1. intros [|fuel] rest Hf Hs; [lia|]. reflexivity.
  - intros n Hn. exists 1. intros [|fuel] rest Hf Hs; [lia|]. destruct Hn as (H1 & H2 & c & r & E & Hc).
    rewrite read_json_eq, E. cbn [app].
    assert (Hd : (c = 45 \/ 48 <= c <= 57)%N).
    { destruct Hc as [Hc|Hc]; [|left; exact Hc]. right. unfold is_digit in Hc. apply andb_true_iff in Hc. destruct Hc as [X Y]. apply N.leb_le in X, Y. lia. }
    assert (Hne : forall k, (k < 45 \/ 57 < k)%N -> (c =? k)%N = false) by (intros k Hk; apply N.eqb_neq; lia).
    assert (Hne' : forall k, (k < 45 \/ 57 < k)%N -> (k =? c)%N = false) by (intros k Hk; apply N.eqb_neq; lia).
    rewrite skip_ws_hd by (unfold json_ws; rewrite !Hne by lia; reflexivity).
    rewrite !Hne by lia.
    assert (Hl : forall k x, (k < 45 \/ 57 < k)%N -> starts_with (k :: x) (c :: r ++ rest) = false).
    { intros k x Hk. simpl. rewrite ?Hne', ?Hne by exact Hk. reflexivity. }
    change (lit "null") with (110%N :: lit "ull"). change (lit "true") with (116%N :: lit "rue"). change (lit "false") with (102%N :: lit "alse").
    rewrite !Hl by lia. change (c :: r ++ rest) with ((c :: r) ++ rest). rewrite <- E.
    rewrite read_lexeme_app by assumption. rewrite H1. reflexivity.
  - intros s. exists 1. intros [|fuel] rest Hf Hs; [lia|]. destruct (read_string s rest) as (r & -> & Hr).
    rewrite read_json_eq, skip_ws_hd by reflexivity. change (34 =? 34)%N with true. cbv iota. rewrite Hr. reflexivity.
  - exists 1. intros [|fuel] rest Hf Hs; [lia|]. reflexivity.
  - intros l w s Hw Hi [n IH]. exists (S n). intros [|fuel] rest Hf Hs; [lia|].
    rewrite read_json_eq. cbn [app]. rewrite skip_ws_hd by reflexivity. simpl (91 =? _)%N. cbv iota.
    rewrite <- !app_assoc, skip_ws_app by exact Hw. destruct (items_starts _ _ Hi) as (c & r & E & Hc & H93 & _).
    rewrite E. cbn [app]. rewrite skip_ws_hd by exact Hc. apply N.eqb_neq in H93. rewrite H93.
    change (c :: r ++ 93%N :: rest) with ((c :: r) ++ 93%N :: rest). rewrite <- E, IH by lia. reflexivity.
  - exists 1. intros [|fuel] rest Hf Hs; [lia|]. reflexivity.
  - intros l w s Hw Hi [n IH]. exists (S n). intros [|fuel] rest Hf Hs; [lia|].
    rewrite read_json_eq. cbn [app]. rewrite skip_ws_hd by reflexivity. simpl (123 =? _)%N. cbv iota.
    rewrite <- !app_assoc, skip_ws_app by exact Hw. destruct (members_starts _ _ Hi) as ((c & r & E & Hc & _ & H125) & _).
    rewrite E. cbn [app]. rewrite skip_ws_hd by exact Hc. apply N.eqb_neq in H125. rewrite H125.
    change (c :: r ++ 125%N :: rest) with ((c :: r) ++ 125%N :: rest). rewrite <- E, IH by lia. reflexivity.
  - intros v s w Hp [n IH] Hw. exists (S n). intros [|fuel] rest Hf; [lia|].
    rewrite read_items_eq, <- app_assoc, IH; [|lia|apply ws_stops; [exact Hw | reflexivity]].
    rewrite skip_ws_app by exact Hw. reflexivity.
  - intros v s w l t Hp [n IH] Hw Hi [m IH2]. exists (S (n + m)). intros [|fuel] rest Hf; [lia|].
    rewrite read_items_eq, <- !app_assoc, IH; [|lia|reflexivity]. cbn [app].
    rewrite skip_ws_hd by reflexivity. change (44 =? 44)%N with true. cbv iota.
    rewrite read_items_ws by exact Hw. rewrite IH2 by lia. reflexivity.
  - intros k v w s w' Hp [n IH] Hw Hw'. exists (S n). intros [|fuel] rest Hf; [lia|].
    rewrite read_members_eq, <- !app_assoc. destruct (read_string k ([58%N] ++ w ++ s ++ w' ++ 125%N :: rest)) as (r & -> & Hr).
    rewrite skip_ws_hd by reflexivity. change (34 =? 34)%N with true. cbv iota. rewrite Hr. cbn [app].
    rewrite skip_ws_hd by reflexivity. change (58 =? 58)%N with true. cbv iota.
    rewrite read_json_ws by exact Hw. rewrite IH; [|lia|apply ws_stops; [exact Hw' | reflexivity]].
    rewrite skip_ws_app by exact Hw'. reflexivity.
  - intros k v w s w' l t Hp [n IH] Hw Hw' Hi [m IH2]. exists (S (n + m)). intros [|fuel] rest Hf; [lia|].
    rewrite read_members_eq, <- !app_assoc. destruct (read_string k ([58%N] ++ w ++ s ++ [44%N] ++ w' ++ t ++ 125%N :: rest)) as (r & -> & Hr).
    rewrite skip_ws_hd by reflexivity. change (34 =? 34)%N with true. cbv iota. rewrite Hr. cbn [app].
    rewrite skip_ws_hd by reflexivity. change (58 =? 58)%N with true. cbv iota.
    rewrite read_json_ws by exact Hw. rewrite IH; [|lia|reflexivity].
    rewrite skip_ws_hd by reflexivity. change (44 =? 44)%N with true. cbv iota.
    rewrite read_members_ws by exact Hw'. rewrite IH2 by lia. reflexivity.
Qed.

(** the printers *)
Section JsonInd.
Variable P : json -> Prop.
Hypothesis Hnull : P JNull.
Hypothesis Hbool : forall b, P (JBool b).
Hypothesis Hnum : forall n, P (JNum n).
Hypothesis Hstr : forall s, P (JStr s).
Hypothesis Harr : forall l, Forall P l -> P (JArr l).
Hypothesis Hobj : forall l, Forall (fun kv => P (snd kv)) l -> P (JObj l).
Fixpoint json_nested (v : json) : P v :=
  match v with
  | JNull => Hnull
  | JBool b => Hbool b
  | JNum n => Hnum n
  | JStr s => Hstr s
  | JArr l => Harr l ((fix go l : Forall P l := match l with [] => Forall_nil _ | x :: l => Forall_cons x (json_nested x) (go l) end) l)
  | JObj l => Hobj l ((fix go l : Forall (fun kv => P (snd kv)) l :=
                         match l with [] => Forall_nil _ | x :: l => Forall_cons x (json_nested (snd x)) (go l) end) l)
  end.
End JsonInd.
Lemma repeat_ws n : ws_str (indent n).
Proof. unfold ws_str, indent, repeat_c. apply Forall_forall. intros x Hx. apply repeat_spec in Hx. subst x. reflexivity. Qed.
Lemma ws_app a b : ws_str a -> ws_str b -> ws_str (a ++ b).
Proof. intros Ha Hb. apply Forall_app. split; assumption. Qed.
Lemma ws_nl : ws_str [10%N]. Proof. constructor; [reflexivity | constructor]. Qed.
Lemma ws_sp : ws_str [32%N]. Proof. constructor; [reflexivity | constructor]. Qed.
Lemma ws_nil : ws_str []. Proof. constructor. Qed.
Lemma flat_map_Forall {A B} (P : B -> Prop) (f : A -> list B) l : Forall P (flat_map f l) -> Forall (fun x => Forall P (f x)) l.
Proof.
  induction l as [|x l IH]; intros H; [constructor|]. simpl in H. apply Forall_app in H. destruct H as [H1 H2].
  constructor; [exact H1 | apply IH, H2].
Qed.

Lemma join_items (f : json -> str) w wf l : ws_str w -> ws_str wf -> l <> [] -> Forall (fun v => prints v (f v)) l ->
  prints_items l (join ([44%N] ++ w) (map f l) ++ wf).
Proof.
  intros Hw Hwf Hne H. induction H as [|v l Hv Hl IH]; [congruence|]. destruct l as [|v' l].
  - simpl. apply pi_one; assumption.
  - change (join ([44%N] ++ w) (map f (v :: v' :: l))) with (f v ++ ([44%N] ++ w) ++ join ([44%N] ++ w) (map f (v' :: l))).
    rewrite <- !app_assoc. apply pi_cons; [exact Hv | exact Hw | apply IH; discriminate].
Qed.
Lemma join_members (f : json -> str) w wv wf l : ws_str w -> ws_str wv -> ws_str wf -> l <> [] ->
  Forall (fun kv : str * json => prints (snd kv) (f (snd kv))) l ->
  prints_members l (join ([44%N] ++ w) (map (fun kv => json_string (fst kv) ++ [58%N] ++ wv ++ f (snd kv)) l) ++ wf).
Proof.
  intros Hw Hwv Hwf Hne H. induction H as [|[k v] l Hv Hl IH]; [congruence|]. cbn [snd] in Hv. destruct l as [|v' l].
  - cbn [map join fst snd]. rewrite <- !app_assoc. apply pm_one; assumption.
  - set (g := fun kv : str * json => json_string (fst kv) ++ [58%N] ++ wv ++ f (snd kv)) in *.
    change (join ([44%N] ++ w) (map g ((k, v) :: v' :: l))) with (g (k, v) ++ ([44%N] ++ w) ++ join ([44%N] ++ w) (map g (v' :: l))).
    change (g (k, v)) with (json_string k ++ [58%N] ++ wv ++ f v).
    rewrite <- !app_assoc. apply pm_cons; [exact Hv | exact Hwv | exact Hw |]. apply IH. discriminate.
Qed.
Lemma join_indent (i sep : str) l : l <> [] -> join sep (map (fun x => i ++ x) l) = i ++ join (sep ++ i) l.
Proof.
  intros H. induction l as [|x l IH]; [congruence|]. destruct l as [|y l]; [reflexivity|].
  change (join sep (map (fun x => i ++ x) (x :: y :: l))) with ((i ++ x) ++ sep ++ join sep (map (fun x => i ++ x) (y :: l))).
  rewrite IH by discriminate. change (join (sep ++ i) (x :: y :: l)) with (x ++ (sep ++ i) ++ join (sep ++ i) (y :: l)).
  rewrite <- !app_assoc. reflexivity.
Qed.
Lemma to_string_prints v : Forall number_ok (json_numbers v) -> prints v (to_string fstr v).
Proof.
  induction v as [|b|n|s|l IH|l IH] using json_nested; intros H.
  - constructor.
  - destruct b; constructor.
  - simpl in *. inversion H; subst. constructor. assumption.
  - constructor.
  - cbn [json_numbers] in H. apply flat_map_Forall in H. destruct l as [|x l]; [constructor|].
    cbn [to_string]. change ([91%N] ++ join [44%N] (map (to_string fstr) (x :: l)) ++ [93%N])
      with ([91%N] ++ [] ++ join ([44%N] ++ []) (map (to_string fstr) (x :: l)) ++ [93%N]).
    apply pr_arr; [constructor|]. rewrite <- (app_nil_r (join _ _)). apply join_items; [constructor | constructor | discriminate |].
    rewrite Forall_forall in *. intros y Hy. apply IH; [exact Hy | apply H, Hy].
  - cbn [json_numbers] in H. apply flat_map_Forall in H. destruct l as [|x l]; [constructor|].
    cbn [to_string]. change ([123%N] ++ ?a ++ [125%N]) with ([123%N] ++ [] ++ a ++ [125%N]).
    apply pr_obj; [constructor|]. rewrite <- (app_nil_r (join _ _)).
    apply (join_members (to_string fstr) [] [] [] (x :: l)); [constructor | constructor | constructor | discriminate |].
    rewrite Forall_forall in *. intros y Hy. apply IH; [exact Hy | apply H, Hy].
Qed.
Lemma to_pretty_prints v : forall d, Forall number_ok (json_numbers v) -> prints v (to_pretty fstr d v).
Proof.
  induction v as [|b|n|s|l IH|l IH] using json_nested; intros d H.
  - constructor.
  - destruct b; constructor.
  - simpl in *. inversion H; subst. constructor. assumption.
  - constructor.
  - cbn [json_numbers] in H. apply flat_map_Forall in H. destruct l as [|x l]; [constructor|].
    cbn [to_pretty].
    assert (E : map (fun x => indent (S d) ++ to_pretty fstr (S d) x) (x :: l)
                = map (fun s => indent (S d) ++ s) (map (to_pretty fstr (S d)) (x :: l))) by (rewrite map_map; reflexivity).
    rewrite E. rewrite join_indent by discriminate.
    match goal with |- prints ?v ?t => enough (X : t = ([91%N] ++ ([10%N] ++ indent (S d)) ++ (join ([44%N] ++ [10%N] ++ indent (S d)) (map (to_pretty fstr (S d)) (x :: l)) ++ [10%N] ++ indent d) ++ [93%N])) end;
      [rewrite X; clear X | rewrite <- !app_assoc; reflexivity].
    apply pr_arr; [apply ws_app; [apply ws_nl | apply repeat_ws]|].
    apply join_items; [apply ws_app; [apply ws_nl | apply repeat_ws] | apply ws_app; [apply ws_nl | apply repeat_ws] | discriminate |].
    rewrite Forall_forall in *. intros y Hy. apply IH; [exact Hy | apply H, Hy].
  - cbn [json_numbers] in H. apply flat_map_Forall in H. destruct l as [|x l]; [constructor|].
    cbn [to_pretty].
    set (g := fun kv : str * json => json_string (fst kv) ++ [58%N] ++ [32%N] ++ to_pretty fstr (S d) (snd kv)).
    assert (E : map (fun kv => indent (S d) ++ json_string (fst kv) ++ [58; 32]%N ++ to_pretty fstr (S d) (snd kv)) (x :: l)
                = map (fun s => indent (S d) ++ s) (map g (x :: l))) by (rewrite map_map; reflexivity).
    rewrite E. rewrite join_indent by discriminate.
    match goal with |- prints ?v ?t => enough (X : t = ([123%N] ++ ([10%N] ++ indent (S d)) ++ (join ([44%N] ++ [10%N] ++ indent (S d)) (map g (x :: l)) ++ [10%N] ++ indent d) ++ [125%N])) end;
      [rewrite X; clear X | rewrite <- !app_assoc; reflexivity].
    apply pr_obj; [apply ws_app; [apply ws_nl | apply repeat_ws]|].
    apply (join_members (to_pretty fstr (S d)) ([10%N] ++ indent (S d)) [32%N] ([10%N] ++ indent d) (x :: l));
      [apply ws_app; [apply ws_nl | apply repeat_ws] | apply ws_sp | apply ws_app; [apply ws_nl | apply repeat_ws] | discriminate |].
    rewrite Forall_forall in *. intros y Hy. apply IH; [exact Hy | apply H, Hy].
Qed.
End Json.

Lemma number_ok_machine other fstr n : machine_number n ->
  (forall f, n = Flt f -> float_round_trip (parse_number other) fstr f) -> number_ok (parse_number other) fstr n.
Proof.
  intros Hm Hf. destruct n as [n|z|f]; cbn [machine_number] in Hm.
  - split; [apply parse_number_N, Hm|]. cbn [number_str]. split.
    + pose proof (N_str_digits n) as H. unfold all_digits in H. apply Forall_forall. intros c Hc.
      rewrite forallb_forall in H. unfold num_char. rewrite (H c Hc). reflexivity.
    + destruct (N_str_head n) as (d & r & E & Hd & _). exists d, r. split; [exact E | left; exact Hd].
  - destruct z as [|p|p]; try lia. split; [apply parse_number_Z; lia|]. cbn [number_str Z_str]. split.
    + pose proof (N_str_digits (Npos p)) as H. unfold all_digits in H. constructor; [reflexivity|]. apply Forall_forall. intros c Hc.
      rewrite forallb_forall in H. unfold num_char. rewrite (H c Hc). reflexivity.
    + eexists; eexists. split; [reflexivity | right; reflexivity].
  - exact (Hf f eq_refl).
Qed.
Lemma numbers_ok other fstr v : Forall machine_number (json_numbers v) ->
  (forall f, In (Flt f) (json_numbers v) -> float_round_trip (parse_number other) fstr f) ->
  Forall (number_ok (parse_number other) fstr) (json_numbers v).
Proof.
  intros H Hf. rewrite Forall_forall in *. intros n Hn. apply number_ok_machine; [apply H, Hn|]. intros f ->. apply Hf, Hn.
Qed.

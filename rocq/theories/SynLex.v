(** * SynLex: which token the lexer reads for each printed piece of Spec_Source. *)
From Coq Require Import Lia String.
From Verif Require Import Str Regex Lexer Json Ast Parser StrFacts RegexFacts Spec_Lexer LexerFacts Spec_Source.
Open Scope nat_scope. Open Scope list_scope.

(** ** Characters a pattern can contain or start with *)
Fixpoint re_chars (r : re) (c : chr) : bool :=
  match r with
  | REmpty | REps => false
  | RChr f => f c
  | RCat a b | RAlt a b => re_chars a c || re_chars b c
  | RStar a => re_chars a c
  end.
Lemma re_chars_spec r s c : lang r s -> In c s -> re_chars r c = true.
Proof.
  intro H. revert c. induction H; intros x Hx; cbn in *; try contradiction.
  - destruct Hx as [<-|[]]; assumption.
  - apply in_app_or in Hx. apply orb_true_iff. destruct Hx; auto.
  - apply orb_true_iff; auto.
  - apply orb_true_iff; auto.
  - apply in_app_or in Hx. destruct Hx; auto.
Qed.
Fixpoint re_first (r : re) (c : chr) : bool :=
  match r with
  | REmpty | REps => false
  | RChr f => f c
  | RCat a b => re_first a c || (nullable a && re_first b c)
  | RAlt a b => re_first a c || re_first b c
  | RStar a => re_first a c
  end.
Lemma re_first_spec r s : lang r s -> forall c s', s = c :: s' -> re_first r c = true.
Proof.
  intro H. induction H; intros x s' Hs; cbn in *; try discriminate.
  - congruence.
  - destruct s as [|y s].
    + cbn in Hs. apply orb_true_iff. right. apply andb_true_iff. split; [now apply nullable_spec|eauto].
    + cbn in Hs. injection Hs as -> _. apply orb_true_iff. left. eauto.
  - apply orb_true_iff; eauto.
  - apply orb_true_iff; eauto.
  - destruct s as [|y s]; [cbn in Hs; eauto|]. cbn in Hs. injection Hs as -> _. eauto.
Qed.

Fixpoint derivs (w : str) (r : re) : re := match w with [] => r | c :: w => derivs w (deriv c r) end.
Lemma derivs_spec w : forall r s, lang (derivs w r) s <-> lang r (w ++ s).
Proof. induction w as [|c w IH]; intros r s; cbn; [tauto|]. rewrite IH. apply deriv_spec. Qed.

(** nothing after [w] can be added to a match of [r] *)
Definition bounded (r : re) (w rest : str) : bool :=
  match rest with [] => true | d :: _ => negb (re_first (derivs w r) d) end.
Lemma bounded_spec r w rest n : bounded r w rest = true -> pat_match r (w ++ rest) n -> n <= length w.
Proof.
  intros Hb [[Hn1 Hn2] Hl]. destruct (le_lt_dec n (length w)) as [|Hlt]; [assumption|exfalso].
  destruct rest as [|d rest]; [rewrite app_nil_r in Hn2; lia|].
  rewrite firstn_app in Hl. rewrite (firstn_all2 w) in Hl by lia.
  destruct (n - length w) as [|k] eqn:E; [lia|]. cbn in Hl.
  apply derivs_spec in Hl. eapply re_first_spec in Hl; [|reflexivity].
  cbn in Hb. rewrite Hl in Hb. discriminate.
Qed.

Fixpoint pick (l : list (re * tkind)) (w : str) : option tkind :=
  match l with
  | [] => None
  | (r, k) :: l => if nullable (derivs w r) then Some k else pick l w
  end.
Lemma pick_spec l w k : pick l w = Some k ->
  exists hi r lo, l = hi ++ (r, k) :: lo /\ lang r w /\ forall r' k', In (r', k') hi -> ~ lang r' w.
Proof.
  induction l as [|[r k0] l IH]; cbn; [discriminate|].
  destruct (nullable (derivs w r)) eqn:E.
  - intros [= ->]. exists [], r, l. split; [reflexivity|]. split.
    + apply nullable_spec in E. apply derivs_spec in E. now rewrite app_nil_r in E.
    + intros ? ? [].
  - intro H. destruct (IH H) as (hi & r' & lo & -> & Hl & Hh). exists ((r, k0) :: hi), r', lo.
    split; [reflexivity|]. split; [assumption|]. intros r1 k1 [[= <- <-]|Hin]; [|eauto].
    intro Hr. assert (X : nullable (derivs w r) = true) by (apply nullable_spec, derivs_spec; now rewrite app_nil_r).
    congruence.
Qed.
(** the token of a concrete piece [w], decided by computation *)
Lemma next_concrete m w rest k : w <> [] -> pick (pats m) w = Some k ->
  forallb (fun rk => bounded (fst rk) w rest) (pats m) = true -> next_token m (w ++ rest) k (length w).
Proof.
  intros Hw Hp Hb. left. destruct (pick_spec _ _ _ Hp) as (hi & r & lo & E & Hl & Hh).
  assert (Hmax : forall r' k' n', In (r', k') (pats m) -> pat_match r' (w ++ rest) n' -> n' <= length w).
  { intros r' k' n' Hin Hm. rewrite forallb_forall in Hb. specialize (Hb _ Hin). eapply bounded_spec; eauto. }
  exists hi, r, lo. split; [assumption|]. split; [|split; [assumption|]].
  - split; [|now rewrite firstn_app, firstn_all, Nat.sub_diag, firstn_O, app_nil_r].
    rewrite app_length. destruct w; [congruence|cbn; lia].
  - intros r' k' Hin [_ Hm]. apply (Hh _ _ Hin).
    now rewrite firstn_app, firstn_all, Nat.sub_diag, firstn_O, app_nil_r in Hm.
Qed.
(** the general rule *)
Lemma next_intro m hi r k lo w rest : pats m = hi ++ (r, k) :: lo -> w <> [] -> lang r w ->
  (forall r' k' n', In (r', k') hi -> pat_match r' (w ++ rest) n' -> n' < length w) ->
  (forall r' k' n', In (r', k') ((r, k) :: lo) -> pat_match r' (w ++ rest) n' -> n' <= length w) ->
  next_token m (w ++ rest) k (length w).
Proof.
  intros E Hw Hl Hhi Hlo. left. exists hi, r, lo. split; [assumption|]. split; [|split].
  - split; [|now rewrite firstn_app, firstn_all, Nat.sub_diag, firstn_O, app_nil_r].
    rewrite app_length. destruct w; [congruence|cbn; lia].
  - intros r' k' n' Hin Hm. rewrite E in Hin. apply in_app_or in Hin. destruct Hin as [Hin|Hin].
    + specialize (Hhi _ _ _ Hin Hm). lia.
    + eauto.
  - intros r' k' Hin Hm. specialize (Hhi _ _ _ Hin Hm). lia.
Qed.
(** a pattern that cannot contain the character after [w] does not match beyond [w] *)
Lemma chars_bound r w d rest n : re_chars r d = false -> pat_match r (w ++ d :: rest) n -> n <= length w.
Proof.
  intros Hc [[Hn1 Hn2] Hl]. destruct (le_lt_dec n (length w)) as [|Hlt]; [assumption|exfalso].
  rewrite firstn_app in Hl. rewrite (firstn_all2 w) in Hl by lia.
  destruct (n - length w) as [|k] eqn:E; [lia|]. cbn in Hl.
  eapply (re_chars_spec _ _ d) in Hl; [congruence|]. apply in_or_app. right. now left.
Qed.
Lemma first_bound r c s n : re_first r c = false -> ~ pat_match r (c :: s) n.
Proof.
  intros Hf [[Hn1 Hn2] Hl]. destruct n as [|n]; [lia|]. cbn in Hl.
  eapply re_first_spec in Hl; [|reflexivity]. congruence.
Qed.
Lemma lit_bound l s n : pat_match (RLit l) s n -> n = length l /\ firstn n s = l.
Proof.
  intros [[Hn1 Hn2] Hl]. apply lang_lit in Hl. split; [|assumption].
  rewrite <- Hl. rewrite firstn_length. lia.
Qed.

(** ** Parameter mode *)
Definition strays : str := [33; 35; 37; 38; 42; 44; 59; 60; 93; 94; 96; 123; 124; 13]%N.   (* no token of a tag starts with these *)
Definition seps : str := ([32; 9; 10; 125; 126; 41; 62] ++ strays)%N.     (* space, tab, newline, } ~ ) > *)
Definition psep (rest : str) : Prop := exists d r, rest = d :: r /\ In d seps.
Definition pathsep (rest : str) : Prop := exists d r, rest = d :: r /\ In d (46 :: 47 :: 91 :: 34 :: 39 :: seps)%N.
Lemma psep_path rest : psep rest -> pathsep rest.
Proof. intros (d & r & -> & H). exists d, r. split; [reflexivity|]. do 4 right. now right. Qed.

(** ** The character classes of Spec_Source are those of the lexer *)
Lemma existsb_same (l1 l2 : str) c : forallb (fun x => existsb (N.eqb x) l2) l1 = true -> forallb (fun x => existsb (N.eqb x) l1) l2 = true ->
  existsb (N.eqb c) l1 = existsb (N.eqb c) l2.
Proof.
  assert (H : forall l1 l2 : str, forallb (fun x => existsb (N.eqb x) l2) l1 = true -> existsb (N.eqb c) l1 = true -> existsb (N.eqb c) l2 = true).
  { intros a b Hf He. apply existsb_exists in He. destruct He as (x & Hx & E). apply N.eqb_eq in E. subst x. rewrite forallb_forall in Hf. now apply Hf. }
  intros H1 H2. apply eq_true_iff_eq. split; apply H; assumption.
Qed.
Lemma white_ws c : In c white_space <-> is_ws c = true.
Proof.
  split.
  - intros H. unfold white_space in H. cbn [In] in H. repeat (destruct H as [<-|H]; [reflexivity|]). contradiction.
  - unfold is_ws. intros H. repeat rewrite orb_true_iff in H. rewrite !andb_true_iff, !N.leb_le, !N.eqb_eq in H.
    assert (R : forall (b : N) (k : nat) (l : str), forallb (fun i => existsb (N.eqb (b + N.of_nat i)) l) (seq 0 (S k)) = true ->
      forall c, (b <= c)%N -> (c <= b + N.of_nat k)%N -> In c l).
    { intros b k l Hf x H1 H2. rewrite forallb_forall in Hf. specialize (Hf (N.to_nat (x - b))). rewrite in_seq in Hf.
      assert (Hb : existsb (N.eqb (b + N.of_nat (N.to_nat (x - b)))) l = true) by (apply Hf; lia).
      replace (b + N.of_nat (N.to_nat (x - b)))%N with x in Hb by lia. apply existsb_exists in Hb. destruct Hb as (y & Hy & E). apply N.eqb_eq in E. now subst. }
    repeat match type of H with _ \/ _ => destruct H as [H|H] end;
      try (subst c; unfold white_space; cbn [In]; tauto).
    + destruct H as [H1 H2]. apply (R 9%N 4 white_space); [reflexivity|exact H1|exact H2].
    + destruct H as [H1 H2]. apply (R 8192%N 10 white_space); [reflexivity|exact H1|exact H2].
Qed.
Lemma not_white c : ~ In c white_space <-> is_ws c = false.
Proof. rewrite white_ws. destruct (is_ws c); split; congruence. Qed.
Lemma ident_char_is c : ident_char c = is_ident c.
Proof.
  unfold ident_char, is_ident, class. rewrite existsb_app, negb_orb. f_equal; f_equal.
  - apply eq_true_iff_eq. rewrite <- white_ws, existsb_exists. split; [intros (x & Hx & E); apply N.eqb_eq in E; now subst|].
    intros H. exists c. split; [exact H|apply N.eqb_refl].
  - apply existsb_same; reflexivity.
Qed.
Lemma ident_chars w : forallb ident_char w = forallb is_ident w.
Proof. induction w as [|c w IH]; [reflexivity|]. cbn [forallb]. now rewrite ident_char_is, IH. Qed.
Lemma digit_chars c : In c (lit "0123456789") <-> is_digit c = true.
Proof.
  split.
  - intros H. cbn in H. repeat (destruct H as [<-|H]; [reflexivity|]). contradiction.
  - unfold is_digit. rewrite andb_true_iff, !N.leb_le. intros [H1 H2]. assert (exists k, k < 10 /\ c = (48 + N.of_nat k)%N) as (k & Hk & ->).
    { exists (N.to_nat (c - 48)). split; lia. }
    do 10 (destruct k as [|k]; [vm_compute; tauto|]). lia.
Qed.
Lemma not_number c : ~ In c (lit "-0123456789") <-> is_digit c = false /\ c <> 45%N.
Proof.
  change (lit "-0123456789") with (45%N :: lit "0123456789"). cbn [In]. change (lit "0123456789") with (lit "0123456789"). split.
  - intros H. split; [|intros ->; apply H; now left]. destruct (is_digit c) eqn:E; [|reflexivity]. exfalso. apply H. right. now apply digit_chars.
  - intros [H1 H2] [<-|H]; [congruence|]. apply digit_chars in H. congruence.
Qed.
Lemma name_in w : name_ok w -> match w with [] => False | c :: _ => is_digit c = false /\ c <> 45%N end /\ forallb is_ident w = true /\ ~ In w reserved.
Proof.
  intros (H1 & H2 & H3). split; [|split; [now rewrite <- ident_chars|exact H3]]. destruct w; [contradiction|now apply not_number].
Qed.
Lemma key_in k : key_ok k -> k <> [] /\ forallb is_ident k = true.
Proof. intros (H1 & H2). split; [exact H1|now rewrite <- ident_chars]. Qed.

Lemma ident_not_excluded c x : is_ident c = true -> In x ident_excluded -> c <> x.
Proof.
  unfold is_ident, class. intros H Hx ->. apply andb_true_iff in H. destruct H as [_ H]. apply negb_true_iff in H.
  assert (existsb (N.eqb x) ident_excluded = true) by (apply existsb_exists; exists x; split; [assumption|apply N.eqb_refl]).
  congruence.
Qed.
Lemma ident_not_ws c : is_ident c = true -> is_ws c = false.
Proof. unfold is_ident. intros H. apply andb_true_iff in H. destruct H as [H _]. now apply negb_true_iff in H. Qed.
Ltac nexc H := apply N.eqb_neq; apply not_eq_sym; refine (ident_not_excluded _ _ H _); vm_compute; tauto.

(** first characters: which patterns of parameter mode an identifier can start *)
Lemma eqb_sym_f x c : (c =? x)%N = false -> (x =? c)%N = false.
Proof. now rewrite N.eqb_sym. Qed.

Lemma name_first c r k : is_ident c = true -> is_digit c = false -> c <> 45%N ->
  In (r, k) pats_param -> re_first r c = true ->
  In (r, k) [(ch "else", KElse); (ch "this", KThis); (ch "true", KTrue); (ch "false", KFalse); (ch "null", KNull);
             (RPlus ident, KIdent); (RCat (RPlus ident) (ch "="), KHashKey)].
Proof.
  intros Hi Hd Hm Hin.
  assert (X : forall x, In x ident_excluded -> (x =? c)%N = false)
    by (intros x Hx; apply N.eqb_neq; apply not_eq_sym; eapply ident_not_excluded; eassumption).
  assert (W : (32 =? c)%N = false /\ (9 =? c)%N = false /\ (10 =? c)%N = false).
  { pose proof (ident_not_ws c Hi) as Hw.
    repeat split; apply N.eqb_neq; intros <-; vm_compute in Hw; discriminate. }
  destruct W as (W1 & W2 & W3).
  assert (Hm' : (45 =? c)%N = false) by (apply N.eqb_neq; congruence).
  unfold pats_param in Hin. cbn [In] in Hin.
  repeat (destruct Hin as [Hin|Hin]; [injection Hin as <- <-; intro Hf|]); try contradiction;
    try (cbn [In]; tauto); exfalso; revert Hf;
    unfold ch, re_number, RPlus, ROpt, digit, class, nl; cbn -[N.eqb];
    rewrite ?(N.eqb_sym c), ?Hd, ?Hm', ?W1, ?W2, ?W3; rewrite ?X by (vm_compute; tauto); cbn; discriminate.
Qed.

Lemma in_tag {A} (f : A -> tkind) l r k : In (r, k) (tag f l) -> exists a, k = f a /\ In (r, a) l.
Proof.
  unfold tag. intro H. apply in_map_iff in H. destruct H as ((r0, a) & [= <- <-] & H). eauto.
Qed.
Lemma tag_app {A} (f : A -> tkind) a b : tag f (a ++ b) = tag f a ++ tag f b.
Proof. apply map_app. Qed.
Lemma psep_chars d : In d (46 :: 47 :: 91 :: 34 :: 39 :: seps)%N -> is_ident d = false /\ (61 =? d)%N = false.
Proof. intro H. cbn in H. repeat (destruct H as [<-|H]; [split; reflexivity|]). contradiction. Qed.

Lemma keyword_bound kw d w rest n : In kw reserved -> In d (46 :: 47 :: 91 :: 34 :: 39 :: seps)%N -> w <> kw ->
  pat_match (RLit kw) (w ++ d :: rest) n -> n < length w.
Proof.
  intros Hk Hd Hw Hm.
  assert (Hle : n <= length w).
  { eapply chars_bound; [|eassumption].
    cbn in Hk, Hd.
    repeat (destruct Hk as [<-|Hk]; [repeat (destruct Hd as [<-|Hd]; [reflexivity|]); contradiction|]). contradiction. }
  destruct (lit_bound _ _ _ Hm) as [Hn Hf].
  destruct (Nat.eq_dec n (length w)) as [E|]; [|lia]. exfalso. apply Hw.
  rewrite <- Hf, E. now rewrite firstn_app, firstn_all, Nat.sub_diag, firstn_O, app_nil_r.
Qed.

Lemma next_name w rest : name_ok w -> pathsep rest -> next_token MParam (w ++ rest) (TParam KIdent) (length w).
Proof.
  intros (Hh & Hi & Hr)%name_in (d & rest' & -> & Hd).
  destruct w as [|c w']; [contradiction|]. destruct Hh as [Hdig Hmin].
  assert (Hic : is_ident c = true) by (cbn in Hi; now apply andb_true_iff in Hi).
  destruct (psep_chars d Hd) as [Hdi Hde].
  set (w := c :: w') in *.
  assert (Hkw : forall s, In s reserved -> w <> s) by (intros s Hs E; apply Hr; now rewrite E).
  assert (P : forall r k n, In (r, k) pats_param -> pat_match r (w ++ d :: rest') n ->
              n <= length w /\ (n = length w -> (r, k) = (RPlus ident, KIdent))).
  { intros r k n Hin Hm.
    assert (Hf : re_first r c = true).
    { destruct (re_first r c) eqn:E; [reflexivity|]. exfalso. eapply first_bound; [exact E|exact Hm]. }
    pose proof (name_first c r k Hic Hdig Hmin Hin Hf) as HH. cbn [In] in HH.
    repeat (destruct HH as [HH|HH]; [injection HH as <- <-|]); try contradiction.
    1-5: (eapply keyword_bound in Hm; [split; [lia|lia]| |exact Hd|apply Hkw]; vm_compute; tauto).
    - split; [|reflexivity]. eapply chars_bound; [|exact Hm]. cbn. now rewrite Hdi.
    - assert (n <= length w).
      { eapply chars_bound; [|exact Hm]. cbn. rewrite Hdi. destruct d; [reflexivity|].
        cbn in Hde |- *. now rewrite Hde. }
      split; [assumption|]. intro E. exfalso. destruct Hm as [_ Hm]. rewrite E in Hm.
      rewrite firstn_app, firstn_all, Nat.sub_diag, firstn_O, app_nil_r in Hm.
      apply lang_cat_iff in Hm. destruct Hm as (a & b & Hab & _ & Hb). apply lang_lit in Hb. subst b.
      rewrite Hab, forallb_app in Hi. apply andb_true_iff in Hi. destruct Hi as [_ Hi]. vm_compute in Hi. discriminate. }
  eapply (next_intro MParam (tag TParam (firstn 9 pats_param)) (RPlus ident) (TParam KIdent) (tag TParam (skipn 10 pats_param)));
    [reflexivity|discriminate|apply lang_plus_chr; split; [discriminate|exact Hi]| |].
  - intros r' k' n' Hin Hm. apply in_tag in Hin. destruct Hin as (k & -> & Hin).
    assert (Hin' : In (r', k) pats_param) by (rewrite <- (firstn_skipn 9 pats_param); apply in_or_app; now left).
    destruct (P _ _ _ Hin' Hm) as [H1 H2].
    destruct (Nat.eq_dec n' (length w)) as [E|]; [|lia]. specialize (H2 E). injection H2 as -> ->.
    exfalso. revert Hin. clear. cbn [firstn pats_param In]. intros H.
    repeat (destruct H as [H|H]; [discriminate|]). contradiction.
  - intros r' k' n' Hin Hm.
    assert (Hin' : In (r', k') (tag TParam pats_param)).
    { destruct Hin as [[= <- <-]|Hin].
      - apply in_map_iff. exists (RPlus ident, KIdent). split; [reflexivity|]. unfold pats_param. do 9 (apply in_cons). apply in_eq.
      - rewrite <- (firstn_skipn 10 pats_param), tag_app. apply in_or_app. now right. }
    apply in_tag in Hin'. destruct Hin' as (k & -> & Hin'). now destruct (P _ _ _ Hin' Hm).
Qed.

(** a token whose pattern is the only one that can start like [w] or go beyond it *)
Lemma bound_both r c w d rest n : negb (re_chars r d) || negb (re_first r c) = true ->
  pat_match r ((c :: w) ++ d :: rest) n -> n <= length (c :: w).
Proof.
  intros H Hm. apply orb_true_iff in H. destruct H as [H|H]; apply negb_true_iff in H.
  - eapply chars_bound; eassumption.
  - exfalso. eapply first_bound; [exact H|exact Hm].
Qed.
Lemma forallb_in {A} (f : A -> bool) l x : forallb f l = true -> In x l -> f x = true.
Proof. intros H. rewrite forallb_forall in H. auto. Qed.

Lemma next_local w rest : w <> [] -> forallb ident_char w = true -> pathsep rest ->
  next_token MParam (([64%N] ++ w) ++ rest) (TParam KLocalIdent) (length ([64%N] ++ w)).
Proof.
  rewrite ident_chars. intros Hw Hi (d & r & -> & Hd). destruct (psep_chars d Hd) as [Hdi Hde].
  eapply (next_intro MParam (tag TParam (firstn 10 pats_param)) (RCat (ch "@") (RPlus ident)) (TParam KLocalIdent) (tag TParam (skipn 11 pats_param)));
    [reflexivity|discriminate| | |].
  - apply lang_cat_iff. exists [64%N], w. split; [reflexivity|]. split; [apply lang_lit; reflexivity|].
    apply lang_plus_chr. now split.
  - intros r' k' n' Hin Hm. exfalso. eapply (first_bound r' 64%N); [|exact Hm].
    assert (X : forallb (fun rk => negb (re_first (fst rk) 64%N)) (tag TParam (firstn 10 pats_param)) = true) by reflexivity.
    apply (forallb_in _ _ _ X) in Hin. now apply negb_true_iff in Hin.
  - intros r' k' n' [[= <- <-]|Hin] Hm.
    + eapply chars_bound; [|exact Hm]. cbn -[N.eqb]. rewrite Hdi.
      rewrite !orb_false_r. cbn in Hd. repeat (destruct Hd as [<-|Hd]; [reflexivity|]). contradiction.
    + exfalso. eapply (first_bound r' 64%N); [|exact Hm].
      assert (X : forallb (fun rk => negb (re_first (fst rk) 64%N)) (tag TParam (skipn 11 pats_param)) = true) by reflexivity.
      apply (forallb_in _ _ _ X) in Hin. now apply negb_true_iff in Hin.
Qed.

Lemma next_key k rest : key_ok k -> next_token MParam ((k ++ [61%N]) ++ rest) (TParam KHashKey) (length (k ++ [61%N])).
Proof.
  intros (Hk & Hi)%key_in.
  assert (P : forall r t n, In (r, t) (tag TParam pats_param) -> pat_match r (k ++ 61%N :: rest) n ->
              t <> TParam KHashKey -> n < length (k ++ [61%N])).
  { intros r t n Hin Hm Ht. rewrite app_length. cbn.
    assert (X : forallb (fun rk => negb (re_chars (fst rk) 61%N) || match snd rk with TParam KHashKey => true | _ => false end) (tag TParam pats_param) = true) by reflexivity.
    apply (forallb_in _ _ _ X) in Hin. cbn [fst snd] in Hin. apply orb_true_iff in Hin. destruct Hin as [Hin|Hin].
    - apply negb_true_iff in Hin. apply (chars_bound _ _ _ _ _ Hin) in Hm. lia.
    - destruct t as [| | | |[]| | | |]; try discriminate. congruence. }
  assert (E : (k ++ [61%N]) ++ rest = k ++ 61%N :: rest) by (now rewrite <- app_assoc).
  eapply (next_intro MParam (tag TParam (firstn 17 pats_param)) (RCat (RPlus ident) (ch "=")) (TParam KHashKey) (tag TParam (skipn 18 pats_param)));
    [reflexivity|destruct k; discriminate| | |].
  - apply lang_cat_iff. exists k, [61%N]. split; [reflexivity|]. split; [apply lang_plus_chr; now split|apply lang_lit; reflexivity].
  - intros r' k' n' Hin Hm. rewrite E in Hm. eapply P; [|exact Hm|].
    + rewrite <- (firstn_skipn 17 pats_param), tag_app. apply in_or_app. left. exact Hin.
    + intros ->. apply in_tag in Hin. destruct Hin as (a & [= <-] & Hin). cbn [firstn pats_param In] in Hin.
      repeat (destruct Hin as [Hin|Hin]; [discriminate|]). contradiction.
  - intros r' k' n' [[= <- <-]|Hin] Hm; rewrite E in Hm.
    + destruct Hm as [[Hn1 Hn2] Hl]. apply lang_cat_iff in Hl. destruct Hl as (a & b & Hab & Ha & Hb).
      apply lang_lit in Hb. subst b. apply lang_plus_chr in Ha. destruct Ha as [Ha Hai].
      assert (Hn : n' = length a + 1).
      { pose proof (firstn_length_le (k ++ 61%N :: rest) Hn2) as X. rewrite Hab, app_length in X. symmetry. exact X. }
      rewrite app_length. cbn. destruct (le_lt_dec (length a) (length k)) as [|Hlt]; [lia|exfalso].
      assert (Hpre : exists z, k ++ 61%N :: rest = a ++ z).
      { exists (lit "=" ++ skipn n' (k ++ 61%N :: rest)). rewrite app_assoc, <- Hab. symmetry. apply firstn_skipn. }
      destruct Hpre as (z & Hz).
      assert (In 61%N a).
      { assert (firstn (length k + 1) (k ++ 61%N :: rest) = firstn (length k + 1) (a ++ z)) by now rewrite Hz.
        rewrite !firstn_app in H. rewrite (firstn_all2 k) in H by lia.
        replace (length k + 1 - length k) with 1 in H by lia. cbn in H.
        replace (length k + 1 - length a) with 0 in H by lia. rewrite firstn_O, app_nil_r in H.
        assert (In 61%N (firstn (length k + 1) a)) by (rewrite <- H; apply in_or_app; right; now left).
        rewrite <- (firstn_skipn (length k + 1) a). apply in_or_app. now left. }
      rewrite forallb_forall in Hai. specialize (Hai _ H). vm_compute in Hai. discriminate.
    + apply Nat.lt_le_incl. eapply P; [|exact Hm|].
      * rewrite <- (firstn_skipn 18 pats_param), tag_app. apply in_or_app. right. exact Hin.
      * intros ->. apply in_tag in Hin. destruct Hin as (a & [= <-] & Hin). cbn [skipn pats_param In] in Hin.
        repeat (destruct Hin as [Hin|Hin]; [discriminate|]). contradiction.
Qed.

Lemma digit_in c : is_digit c = true -> In c [48;49;50;51;52;53;54;55;56;57]%N.
Proof.
  unfold is_digit. intro H. apply andb_true_iff in H. destruct H as [H1 H2]. apply N.leb_le in H1, H2.
  assert (exists k : nat, (k < 10)%nat /\ c = (48 + N.of_nat k)%N).
  { exists (N.to_nat (c - 48)). split; lia. }
  destruct H as (k & Hk & ->).
  do 10 (destruct k as [|k]; [vm_compute; tauto|]). lia.
Qed.
Lemma digits_plus s : digits s <-> lang (RPlus digit) s.
Proof.
  unfold digit. rewrite lang_plus_chr. unfold digits. split; intros [H1 H2]; (split; [exact H1|]).
  - apply forallb_forall. intros x Hx. apply digit_chars, H2, Hx.
  - intros c Hc. apply digit_chars. rewrite forallb_forall in H2. now apply H2.
Qed.
Lemma number_lang s : number_text s <-> lang re_number s.
Proof.
  split.
  - intros [sg w fr ex Hs Hw Hf He]. unfold re_number. apply lang_cat_iff. exists sg, (w ++ fr ++ ex). split; [reflexivity|]. split.
    { apply lang_opt_iff. cbn in Hs. destruct Hs as [<-|[<-|[]]]; [now left|right; apply lang_lit; reflexivity]. }
    assert (Hex : lang (ROpt (RCat (RChr (class [101; 69]%N)) (RCat (ROpt (RChr (class [43; 45]%N))) (RPlus digit)))) ex).
    { apply lang_opt_iff. destruct He as [->|(m & g & x & -> & Hm & Hg & Hx)]; [now left|right]. apply lang_cat_iff. exists m, (g ++ x). split; [reflexivity|]. split.
      - apply lang_chr_iff. cbn in Hm. destruct Hm as [<-|[<-|[]]]; eexists; (split; [reflexivity|reflexivity]).
      - apply lang_cat_iff. exists g, x. split; [reflexivity|]. split; [|now apply digits_plus]. apply lang_opt_iff. cbn in Hg.
        destruct Hg as [<-|[<-|[<-|[]]]]; [now left|right; apply lang_chr_iff; eexists; (split; [reflexivity|reflexivity])..]. }
    destruct Hf as [->|(f & -> & Hf)].
    + apply lang_cat_iff. exists [], (w ++ ex). split; [reflexivity|]. split; [apply lang_opt_iff; now left|].
      apply lang_cat_iff. exists w, ex. split; [reflexivity|]. split; [now apply digits_plus|exact Hex].
    + apply lang_cat_iff. exists (w ++ lit "."), (f ++ ex). split; [now rewrite <- !app_assoc|]. split.
      * apply lang_opt_iff. right. apply lang_cat_iff. exists w, (lit "."). split; [reflexivity|]. split; [now apply digits_plus|apply lang_lit; reflexivity].
      * apply lang_cat_iff. exists f, ex. split; [reflexivity|]. split; [now apply digits_plus|exact Hex].
  - intros H. unfold re_number in H. apply lang_cat_iff in H. destruct H as (sg & r1 & -> & Hs & H). apply lang_cat_iff in H. destruct H as (p & r2 & -> & Hp & H).
    apply lang_cat_iff in H. destruct H as (d & ex & -> & Hd & He).
    assert (Hs' : In sg [[]; lit "-"]). { apply lang_opt_iff in Hs. destruct Hs as [->|Hs]; [now left|]. apply lang_lit in Hs. right. left. now symmetry. }
    assert (He' : ex = [] \/ exists m g x, ex = m ++ g ++ x /\ In m [lit "e"; lit "E"] /\ In g [[]; lit "+"; lit "-"] /\ digits x).
    { apply lang_opt_iff in He. destruct He as [->|He]; [now left|right]. apply lang_cat_iff in He. destruct He as (m & r & -> & Hm & He). apply lang_cat_iff in He. destruct He as (g & x & -> & Hg & Hx).
      exists m, g, x. split; [reflexivity|]. split; [|split; [|now apply digits_plus]].
      - apply lang_chr_iff in Hm. destruct Hm as (c & -> & Hc). unfold class in Hc. apply existsb_exists in Hc. destruct Hc as (y & Hy & E). apply N.eqb_eq in E. subst y. cbn in Hy. destruct Hy as [<-|[<-|[]]]; cbn; auto.
      - apply lang_opt_iff in Hg. destruct Hg as [->|Hg]; [now left|]. apply lang_chr_iff in Hg. destruct Hg as (c & -> & Hc). unfold class in Hc. apply existsb_exists in Hc. destruct Hc as (y & Hy & E). apply N.eqb_eq in E. subst y. cbn in Hy. destruct Hy as [<-|[<-|[]]]; cbn; auto. }
    apply lang_opt_iff in Hp. destruct Hp as [->|Hp].
    + cbn [app]. apply (num_text sg d [] ex); [exact Hs'|now apply digits_plus|now left|exact He'].
    + apply lang_cat_iff in Hp. destruct Hp as (w & dot & -> & Hw & Hdot). apply lang_lit in Hdot. subst dot.
      rewrite <- !app_assoc. change (w ++ lit "." ++ d ++ ex) with (w ++ (lit "." ++ d) ++ ex).
      apply (num_text sg w (lit "." ++ d) ex); [exact Hs'|now apply digits_plus|right; exists d; split; [reflexivity|now apply digits_plus]|exact He'].
Qed.
Lemma number_first s : number_text s -> exists c w, s = c :: w /\ In c [45;48;49;50;51;52;53;54;55;56;57]%N.
Proof.
  rewrite number_lang. intro H. destruct s as [|c w].
  - apply nullable_spec in H. discriminate.
  - exists c, w. split; [reflexivity|]. eapply re_first_spec in H; [|reflexivity].
    unfold re_number, RPlus, ROpt, digit, ch in H. cbn -[N.eqb is_digit] in H.
    apply orb_true_iff in H. destruct H as [H|H].
    + apply N.eqb_eq in H. subst. now left.
    + right. apply digit_in. destruct (is_digit c); [reflexivity|]. cbn in H. discriminate.
Qed.
Lemma next_number s rest : number_text s -> psep rest -> next_token MParam (s ++ rest) (TParam KNumber) (length s).
Proof.
  rewrite number_lang. intros Hl (d & r & -> & Hd). destruct (number_first s (proj2 (number_lang _) Hl)) as (c & w & -> & Hc).
  assert (X : forallb (fun rk => negb (re_first (fst rk) c)) (tag TParam (firstn 8 pats_param))
              && forallb (fun rk => negb (re_chars (fst rk) d) || negb (re_first (fst rk) c)) (tag TParam (skipn 8 pats_param)) = true).
  { cbn in Hc, Hd.
    repeat (destruct Hc as [<-|Hc]; [repeat (destruct Hd as [<-|Hd]; [reflexivity|]); contradiction|]). contradiction. }
  apply andb_true_iff in X. destruct X as [X1 X2].
  eapply (next_intro MParam (tag TParam (firstn 8 pats_param)) re_number (TParam KNumber) (tag TParam (skipn 9 pats_param)));
    [reflexivity|discriminate|exact Hl| |].
  - intros r' k' n' Hin Hm. exfalso. apply (forallb_in _ _ _ X1) in Hin. apply negb_true_iff in Hin.
    eapply first_bound; [exact Hin|exact Hm].
  - intros r' k' n' Hin Hm. apply (forallb_in _ _ _ X2) in Hin. eapply bound_both; [exact Hin|exact Hm].
Qed.

(** ** Quoted strings *)
Definition qmode (single : bool) : mode := if single then MSingle else MDouble.
Definition qtok (single : bool) (q : tquote) : tkind := if single then TSingle q else TDouble q.

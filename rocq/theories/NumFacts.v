(** * NumFacts: integers as doubles and the order of doubles. *)
From Coq Require Import Lia String.
From Verif Require Import Str Json Spec_Values.
Open Scope nat_scope. Open Scope list_scope.

Lemma pow_S n : (0 <= n)%Z -> (2 ^ (n + 1) = 2 * 2 ^ n)%Z.
Proof. intros H. rewrite Z.pow_add_r by lia. lia. Qed.
Lemma digits2_bounds p : (2 ^ (Zpos (digits2_pos p) - 1) <= Zpos p < 2 ^ Zpos (digits2_pos p))%Z.
Proof.
  induction p as [p IH|p IH|]; [| |simpl; lia].
  - cbn [digits2_pos]. rewrite Pos2Z.inj_succ. unfold Z.succ.
    replace (Zpos (digits2_pos p) + 1 - 1)%Z with (Zpos (digits2_pos p) - 1 + 1)%Z by lia.
    rewrite pow_S by lia. rewrite pow_S by lia. lia.
  - cbn [digits2_pos]. rewrite Pos2Z.inj_succ. unfold Z.succ.
    replace (Zpos (digits2_pos p) + 1 - 1)%Z with (Zpos (digits2_pos p) - 1 + 1)%Z by lia.
    rewrite pow_S by lia. rewrite pow_S by lia. lia.
Qed.
Lemma digits2_unique p d : (0 < d)%Z -> (2 ^ (d - 1) <= Zpos p < 2 ^ d)%Z -> Zpos (digits2_pos p) = d.
Proof.
  intros Hd H. pose proof (digits2_bounds p) as B.
  destruct (Z.lt_trichotomy (Zpos (digits2_pos p)) d) as [C|[C|C]]; [|exact C|]; exfalso.
  - assert (2 ^ Zpos (digits2_pos p) <= 2 ^ (d - 1))%Z by (apply Z.pow_le_mono_r; lia). lia.
  - assert (2 ^ d <= 2 ^ (Zpos (digits2_pos p) - 1))%Z by (apply Z.pow_le_mono_r; lia). lia.
Qed.
Lemma shift_pos_val d p : Zpos (shift_pos d p) = (Zpos p * 2 ^ Zpos d)%Z.
Proof. rewrite shift_pos_correct. change (Z.pow_pos 2 d) with (2 ^ Zpos d)%Z. lia. Qed.

Lemma shr_fexp_exact m e : (fexp 53 1024 (Zdigits2 m + e) = e)%Z ->
  shr_fexp 53 1024 m e loc_Exact = (Build_shr_record m false false, e).
Proof. intros H. unfold shr_fexp. rewrite H, Z.sub_diag. reflexivity. Qed.
Lemma round_aux_exact s m e : (fexp 53 1024 (Zpos (digits2_pos m) + e) = e)%Z -> (e <= 971)%Z ->
  binary_round_aux 53 1024 s (Zpos m) e loc_Exact = S754_finite s m e.
Proof.
  intros H He. unfold binary_round_aux. rewrite shr_fexp_exact by exact H. cbn [shr_m loc_of_shr_record round_nearest_even].
  rewrite shr_fexp_exact by exact H. cbn [shr_m]. change (1024 - 53)%Z with 971%Z. apply Z.leb_le in He. rewrite He. reflexivity.
Qed.
Lemma round_small s p : (Zpos p < 2 ^ 53)%Z -> exists m e, binary_round 53 1024 s p 0 = S754_finite s m e
  /\ (Zpos m = Zpos p * 2 ^ (- e))%Z /\ (-52 <= e <= 0)%Z /\ valid_binary 53 1024 (S754_finite s m e) = true.
Proof.
  intros Hp. pose proof (digits2_bounds p) as B.
  assert (D : (Zpos (digits2_pos p) <= 53)%Z).
  { destruct (Z.le_gt_cases (Zpos (digits2_pos p)) 53) as [C|C]; [exact C|].
    assert (2 ^ 53 <= 2 ^ (Zpos (digits2_pos p) - 1))%Z by (apply Z.pow_le_mono_r; lia). lia. }
  assert (V : forall m e, (Zpos m = Zpos p * 2 ^ (- e))%Z -> e = (Zpos (digits2_pos p) - 53)%Z -> fexp 53 1024 (Zpos (digits2_pos m) + e) = e).
  { intros m e Hm He. assert (Hd : Zpos (digits2_pos m) = 53%Z).
    { apply digits2_unique; [lia|]. rewrite Hm, He. replace (- (Zpos (digits2_pos p) - 53))%Z with (53 - Zpos (digits2_pos p))%Z by lia.
      set (d := Zpos (digits2_pos p)) in *. split.
      - replace (53 - 1)%Z with (d - 1 + (53 - d))%Z by lia. rewrite Z.pow_add_r by lia. apply Z.mul_le_mono_nonneg_r; [apply Z.pow_nonneg; lia | lia].
      - replace (2 ^ 53)%Z with (2 ^ d * 2 ^ (53 - d))%Z by (rewrite <- Z.pow_add_r by lia; f_equal; lia).
        apply Z.mul_lt_mono_pos_r; [apply Z.pow_pos_nonneg; lia | lia]. }
    rewrite Hd. unfold fexp, emin. lia. }
  unfold binary_round, shl_align.
  assert (F : fexp 53 1024 (Zpos (digits2_pos p) + 0) = (Zpos (digits2_pos p) - 53)%Z) by (unfold fexp, emin; lia).
  rewrite F, Z.sub_0_r. destruct (Zpos (digits2_pos p) - 53)%Z as [|q|q] eqn:Ed; [| lia |].
  - assert (Hv : fexp 53 1024 (Zpos (digits2_pos p) + 0) = 0%Z) by (rewrite F; reflexivity).
    exists p, 0%Z. rewrite round_aux_exact by (exact Hv || lia). repeat split; try lia.
    unfold valid_binary, bounded, canonical_mantissa. rewrite Hv. reflexivity.
  - assert (Hm : Zpos (shift_pos q p) = (Zpos p * 2 ^ (- Z.neg q))%Z) by (rewrite shift_pos_val; reflexivity).
    pose proof (V (shift_pos q p) (Z.neg q) Hm eq_refl) as Hv.
    exists (shift_pos q p), (Z.neg q). rewrite round_aux_exact by (exact Hv || lia).
    split; [reflexivity|]. split; [exact Hm|]. split; [lia|].
    unfold valid_binary, bounded, canonical_mantissa. rewrite Hv.
    assert (X : Zeq_bool (Z.neg q) (Z.neg q) = true) by (apply Zeq_is_eq_bool; reflexivity).
    rewrite X. reflexivity.
Qed.
Lemma f64_small z : (- 2 ^ 53 < z < 2 ^ 53)%Z -> finite_f64 (f64_of_Z z) /\ f64_scaled (f64_of_Z z) = (z * 2 ^ 1074)%Z.
Proof.
  intros H. unfold f64_of_Z, binary_normalize. destruct z as [|p|p]; [split; [exact I | reflexivity]|..].
  - destruct (round_small false p) as (m & e & -> & Hm & He & Hv); [lia|]. split; [exact Hv|].
    unfold f64_scaled. rewrite Hm, <- Z.mul_assoc, <- Z.pow_add_r by lia. do 2 f_equal. lia.
  - destruct (round_small true p) as (m & e & -> & Hm & He & Hv); [lia|]. split; [exact Hv|].
    unfold f64_scaled. rewrite Hm. replace (- (Zpos p * 2 ^ (- e)) * 2 ^ (e + 1074))%Z with (- (Zpos p * (2 ^ (- e) * 2 ^ (e + 1074))))%Z by lia.
    rewrite <- Z.pow_add_r by lia. replace (- e + (e + 1074))%Z with 1074%Z by lia. lia.
Qed.
Lemma exact_f64 n : exact_number n -> finite_f64 (as_f64 n) /\ f64_scaled (as_f64 n) = number_scaled n.
Proof.
  destruct n as [n|z|f]; cbn [exact_number as_f64 number_scaled]; intros H.
  - apply f64_small. change (2 ^ 53)%N with 9007199254740992%N in H. change (2 ^ 53)%Z with 9007199254740992%Z. lia.
  - apply f64_small, H.
  - split; [exact H | reflexivity].
Qed.

(** ** Order *)
Lemma canonical_spec m e : valid_binary 53 1024 (S754_finite false m e) = true ->
  (-1074 <= e)%Z /\ (Zpos (digits2_pos m) <= 53)%Z /\ ((-1074 < e)%Z -> Zpos (digits2_pos m) = 53%Z).
Proof.
  unfold valid_binary, bounded, canonical_mantissa. intros H. apply andb_true_iff in H. destruct H as [H _].
  apply Zeq_bool_eq in H. unfold fexp, emin in H. lia.
Qed.
Lemma mag_lt m1 e1 m2 e2 : valid_binary 53 1024 (S754_finite false m1 e1) = true ->
  valid_binary 53 1024 (S754_finite false m2 e2) = true -> (e1 < e2)%Z ->
  (Zpos m1 * 2 ^ (e1 + 1074) < Zpos m2 * 2 ^ (e2 + 1074))%Z.
Proof.
  intros H1 H2 He. apply canonical_spec in H1, H2. destruct H1 as (A1 & B1 & C1). destruct H2 as (A2 & B2 & C2).
  specialize (C2 ltac:(lia)). pose proof (digits2_bounds m1) as D1. pose proof (digits2_bounds m2) as D2. rewrite C2 in D2.
  assert (X : (2 ^ Zpos (digits2_pos m1) <= 2 ^ 53)%Z) by (apply Z.pow_le_mono_r; lia).
  apply Z.lt_le_trans with (2 ^ 53 * 2 ^ (e1 + 1074))%Z.
  - apply Z.mul_lt_mono_pos_r; [apply Z.pow_pos_nonneg; lia | lia].
  - apply Z.le_trans with (2 ^ (53 - 1) * 2 ^ (e2 + 1074))%Z.
    + rewrite <- !Z.pow_add_r by lia. apply Z.pow_le_mono_r; lia.
    + apply Z.mul_le_mono_nonneg_r; [apply Z.pow_nonneg; lia | lia].
Qed.
Lemma mag_compare m1 e1 m2 e2 : valid_binary 53 1024 (S754_finite false m1 e1) = true ->
  valid_binary 53 1024 (S754_finite false m2 e2) = true ->
  match Z.compare e1 e2 with Lt => Lt | Gt => Gt | Eq => Pcompare m1 m2 Eq end
  = Z.compare (Zpos m1 * 2 ^ (e1 + 1074)) (Zpos m2 * 2 ^ (e2 + 1074)).
Proof.
  intros H1 H2. destruct (Z.compare_spec e1 e2) as [->|H|H].
  - symmetry. rewrite <- Zmult_compare_compat_r; [reflexivity|]. apply Z.lt_gt, Z.pow_pos_nonneg; [lia|]. apply canonical_spec in H1. lia.
  - symmetry. apply Z.compare_lt_iff, mag_lt; assumption.
  - symmetry. apply Z.compare_gt_iff, mag_lt; assumption.
Qed.
Lemma mag_pos m e s : valid_binary 53 1024 (S754_finite s m e) = true -> (0 < Zpos m * 2 ^ (e + 1074))%Z.
Proof. intros H. apply Z.mul_pos_pos; [lia|]. apply Z.pow_pos_nonneg; [lia|]. apply (canonical_spec m e) in H. lia. Qed.
Lemma compare_scaled a b : finite_f64 a -> finite_f64 b -> SFcompare a b = Some (Z.compare (f64_scaled a) (f64_scaled b)).
Proof.
  intros Ha Hb.
  destruct a as [sa|sa| |sa ma ea]; try contradiction Ha; destruct b as [sb|sb| |sb mb eb]; try contradiction Hb;
    cbn [finite_f64] in Ha, Hb; cbn [SFcompare f64_scaled].
  - reflexivity.
  - pose proof (mag_pos _ _ _ Hb). destruct sb; f_equal; symmetry; [apply Z.compare_gt_iff | apply Z.compare_lt_iff]; lia.
  - pose proof (mag_pos _ _ _ Ha). destruct sa; f_equal; symmetry; [apply Z.compare_lt_iff | apply Z.compare_gt_iff]; lia.
  - pose proof (mag_pos _ _ _ Ha) as Pa. pose proof (mag_pos _ _ _ Hb) as Pb. f_equal. destruct sa, sb.
    + rewrite !Z.mul_opp_l.
      assert (X : forall x y, ((- x) ?= (- y) = CompOpp (x ?= y))%Z) by (intros x y; rewrite <- Z.compare_antisym; apply Z.compare_opp).
      rewrite X, <- (mag_compare ma ea mb eb Ha Hb). destruct (Z.compare ea eb); reflexivity.
    + symmetry. apply Z.compare_lt_iff. lia.
    + symmetry. apply Z.compare_gt_iff. lia.
    + apply mag_compare; assumption.
Qed.

(** ** Conversions never give a NaN *)
Lemma shr_1_nonneg r : (0 <= shr_m r)%Z -> (0 <= shr_m (shr_1 r))%Z.
Proof. destruct r as [m r s]. simpl. destruct m as [|[p|p|]|p]; simpl; lia. Qed.
Lemma iter_pos_nonneg p : forall r, (0 <= shr_m r)%Z -> (0 <= shr_m (iter_pos shr_1 p r))%Z.
Proof. induction p as [p IH|p IH|]; intros r H; cbn [iter_pos]; [apply IH, IH, shr_1_nonneg, H | apply IH, IH, H | apply shr_1_nonneg, H]. Qed.
Lemma shr_fexp_nonneg m e l : (0 <= m)%Z -> (0 <= shr_m (fst (shr_fexp 53 1024 m e l)))%Z.
Proof.
  intros H. unfold shr_fexp, shr. assert (H0 : (0 <= shr_m (shr_record_of_loc m l))%Z) by (destruct l as [|[]]; exact H).
  destruct (_ - e)%Z; cbn [fst]; try exact H0. apply iter_pos_nonneg, H0.
Qed.
Lemma f64_not_nan z : f64_of_Z z <> S754_nan.
Proof.
  assert (X : forall s m e, binary_round_aux 53 1024 s (Zpos m) e loc_Exact <> S754_nan).
  { intros s m e. unfold binary_round_aux. pose proof (shr_fexp_nonneg (Zpos m) e loc_Exact ltac:(lia)) as H1.
    destruct (shr_fexp 53 1024 (Zpos m) e loc_Exact) as [r1 e1]. cbn [fst] in H1.
    assert (H2 : (0 <= round_nearest_even (shr_m r1) (loc_of_shr_record r1))%Z).
    { unfold round_nearest_even. destruct (loc_of_shr_record r1) as [|[]]; try lia. destruct (Z.even _); lia. }
    pose proof (shr_fexp_nonneg _ e1 loc_Exact H2) as H3.
    destruct (shr_fexp 53 1024 (round_nearest_even (shr_m r1) (loc_of_shr_record r1)) e1 loc_Exact) as [r2 e2]. cbn [fst] in H3.
    destruct (shr_m r2); [discriminate | destruct (_ <=? _)%Z; discriminate | lia]. }
  unfold f64_of_Z, binary_normalize, binary_round. destruct z as [|p|p]; [discriminate|..]; destruct (shl_align _ _ _); apply X.
Qed.
Lemma as_f64_not_nan n : not_nan n -> as_f64 n <> S754_nan.
Proof. intros H. destruct n as [n|z|f]; cbn [as_f64]; [apply f64_not_nan | apply f64_not_nan | intros ->; apply H; reflexivity]. Qed.
Lemma SFcompare_total a b : a <> S754_nan -> b <> S754_nan -> exists c, SFcompare a b = Some c /\ SFcompare b a = Some (CompOpp c).
Proof.
  intros Ha Hb. destruct a as [sa|sa| |sa ma ea]; try congruence; destruct b as [sb|sb| |sb mb eb]; try congruence;
    cbn [SFcompare]; eexists; (split; [reflexivity|]); f_equal.
  - destruct sb; reflexivity.
  - destruct sb; reflexivity.
  - destruct sa; reflexivity.
  - destruct sa, sb; reflexivity.
  - destruct sa; reflexivity.
  - destruct sa; reflexivity.
  - destruct sb; reflexivity.
  - destruct sa, sb; try reflexivity; rewrite (Z.compare_antisym ea eb); destruct (Z.compare ea eb); try reflexivity; cbn [CompOpp];
      change (Pos.compare_cont Eq mb ma) with (Pos.compare mb ma); change (Pos.compare_cont Eq ma mb) with (Pos.compare ma mb);
      rewrite (Pos.compare_antisym ma mb); destruct (Pos.compare ma mb); reflexivity.
Qed.

(** * DocProps: the theorems of Props_Parser derived from DocFacts, plus error reports. *)
From Coq Require Import Lia String.
From Verif Require Import Str Lexer Json Ast ErrInfo Parser Spec_Lexer Spec_Ast StrFacts RegexFacts LexerFacts
  ParserFacts CallFacts ArgFacts LeafFacts TreeFacts BlockFacts DocFacts.
Open Scope nat_scope. Open Scope list_scope.

Lemma compile_doc env o src n fs : compile env o src = POk n fs ->
  exists toks ns, lex src = Some toks /\ n = NDoc ns /\ doc_ok src toks (po_line o) ns fs.
Proof.
  intros H. destruct (lex_total src) as (toks & Hl & _). pose proof (compile_post env o src toks Hl) as Hp.
  rewrite H in Hp. destruct Hp as (ns & -> & Hd). exists toks, ns. repeat split; assumption.
Qed.
Lemma compile_total env o src : compile env o src <> PFuel.
Proof.
  destruct (lex_total src) as (toks & Hl & _). pose proof (compile_post env o src toks Hl) as Hp.
  intros E. rewrite E in Hp. exact Hp.
Qed.
Lemma compile_panics env o src p : compile env o src = PPanic p -> ok_panic p.
Proof.
  destruct (lex_total src) as (toks & Hl & _). pose proof (compile_post env o src toks Hl) as Hp.
  intros E. rewrite E in Hp. exact Hp.
Qed.

Lemma compile_leaves env o src n fs : compile env o src = POk n fs ->
  exists toks q, lex src = Some toks
    /\ Forall (leaf_good src toks (po_line o) 0 q) (node_leaves n)
    /\ Forall (block_good src toks (po_line o) 0 q) (node_blocks false n).
Proof.
  intros H. destruct (compile_doc _ _ _ _ _ H) as (toks & ns & Hl & -> & q & _ & Hn & _).
  exists toks, q. split; [exact Hl|]. cbn [node_leaves node_blocks].
  split; apply Forall_flat_map; (eapply Forall_impl; [|exact Hn]); intros x [H1 H2]; assumption.
Qed.

Lemma compile_spans env o src n fs : compile env o src = POk n fs ->
  Forall (valid_span src) (tree_spans n) /\ Forall (fun oc => snd (fst oc) <= fst (snd oc)) (tree_tags n).
Proof.
  intros H. destruct (compile_leaves _ _ _ _ _ H) as (toks & q & _ & H1 & H2). unfold tree_spans, tree_tags.
  rewrite !Forall_app, !Forall_flat_map. repeat split.
  - eapply Forall_impl; [|exact H1]. intros x (X & _). eapply Forall_impl; [|exact X]. intros s S; apply S.
  - eapply Forall_impl; [|exact H2]. intros x (X & _). eapply Forall_impl; [|exact X]. intros s S; apply S.
  - eapply Forall_impl; [|exact H1]. intros x (_ & X & _). exact X.
  - eapply Forall_impl; [|exact H2]. intros x (_ & X & _). exact X.
Qed.

Lemma compile_blocks env o src n fs b : compile env o src = POk n fs -> In (false, b) (node_blocks false n) ->
  exists toks, lex src = Some toks /\ block_fact src toks (po_line o) b.
Proof.
  intros H Hin. destruct (compile_leaves _ _ _ _ _ H) as (toks & q & Hl & _ & H2). rewrite Forall_forall in H2.
  exists toks. split; [exact Hl|]. apply (H2 _ Hin). reflexivity.
Qed.

Lemma compile_tiles env o src ns fs : compile env o src = POk (NDoc ns) fs ->
  exists q, nodes_tile src 0 q ns
    /\ (q = blen src \/ exists toks t, lex src = Some toks /\ In t toks /\ t_start t = q
          /\ (t_kind t = TBlock BStartBlockScope \/ t_kind t = TBlock BEndRawBlock \/ kind_mode (t_kind t) <> MBlock)).
Proof.
  intros H. destruct (compile_doc _ _ _ _ _ H) as (toks & ns' & Hl & E & q & Ht & _ & Hq). injection E as <-.
  exists q. split; [exact Ht|]. destruct Hq as [[Hq _]|(t & Hin & Hs & Hk)]; [left; exact Hq | right].
  exists toks, t. repeat (split; [assumption|]).
  destruct (t_kind t) as [b|k|k|k|k|k|k|k|k] eqn:Ek; try (right; right; discriminate).
  destruct b; try destruct Hk; [left; reflexivity | right; left; reflexivity|].
  exfalso. destruct (lex_errors src toks t Hl Hin) as [Hne _]; [rewrite Ek; reflexivity|].
  apply Hne. rewrite Ek. left. reflexivity.
Qed.

(** ** Error reports *)
Lemma ascii_clen c : (c < 128)%N -> clen c = 1.
Proof. intros H. unfold clen. apply N.ltb_lt in H. rewrite H. reflexivity. Qed.
Lemma ascii_blen (s : str) : Forall (fun c => (c < 128)%N) s -> blen s = length s.
Proof. induction 1 as [|c s H Hs IH]; simpl; [reflexivity|]. rewrite IH, (ascii_clen c H). reflexivity. Qed.
Lemma ascii_at (a : str) c (b : str) : Forall (fun c => (c < 128)%N) (a ++ c :: b) ->
  slice (a ++ c :: b) (length a) (length a + 1) = Some [c].
Proof.
  intros H. pose proof (slice_mid a [c] b) as Hm. apply Forall_app in H. destruct H as [Ha Hc].
  inversion Hc as [|? ? Hc1 _]; subst.
  rewrite (ascii_blen a Ha) in Hm. simpl in Hm. rewrite (ascii_clen c Hc1) in Hm. exact Hm.
Qed.
Lemma find_prev_at (a : str) c (b : str) : Forall (fun c => (c < 128)%N) (a ++ c :: b) -> a <> [] ->
  find_prev (a ++ c :: b) (length a)
  = if (c =? 10)%N then Some (Some (length a)) else find_prev (a ++ c :: b) (length a - 1).
Proof.
  intros H Ha. pose proof (ascii_at a c b H) as E. destruct (length a) as [|n] eqn:En; [apply length_zero_iff_nil in En; congruence|].
  cbn [find_prev]. rewrite E. replace (S n - 1) with n by lia. cbn [streq].
  destruct (c =? 10)%N; reflexivity.
Qed.
Lemma find_prev_line (s before : str) : Forall (fun c => (c < 128)%N) s ->
  (before = [] \/ exists x, x <> [] /\ before = x ++ [10%N]) ->
  forall (l1 : str) c (rest : str), s = before ++ l1 ++ c :: rest -> ~ In 10%N (l1 ++ [c]) ->
  find_prev s (length before + length l1) = Some (match before with [] => None | _ => Some (length before - 1) end).
Proof.
  intros Ha Hb. induction l1 as [|c' l1 IH] using rev_ind; intros c rest E Hn.
  - simpl. rewrite Nat.add_0_r. simpl in E. destruct before as [|b0 before]; [reflexivity|].
    destruct Hb as [Hb|(x & Hx & Hb)]; [discriminate|]. rewrite E in *.
    rewrite find_prev_at; [|exact Ha|discriminate].
    assert (Ec : (c =? 10)%N = false) by (apply N.eqb_neq; intros ->; apply Hn; left; reflexivity).
    rewrite Ec, Hb, <- app_assoc in *. simpl in *. rewrite app_length. simpl.
    replace (length x + 1 - 1) with (length x) by lia.
    rewrite find_prev_at; [reflexivity|exact Ha|exact Hx].
  - rewrite <- app_assoc in E. simpl in E.
    pose proof (find_prev_at (before ++ l1 ++ [c']) c rest) as H. rewrite <- !app_assoc in H. simpl in H.
    rewrite <- E in H.
    assert (Ec : (c =? 10)%N = false) by (apply N.eqb_neq; intros ->; apply Hn, in_or_app; right; left; reflexivity).
    rewrite Ec, !app_length in H. simpl in H. rewrite app_length. simpl. rewrite H; [|exact Ha|destruct before, l1; discriminate].
    replace (length before + (length l1 + 1) - 1) with (length before + length l1) by lia.
    apply (IH c' (c :: rest) E). intros Hin. apply Hn. apply in_or_app. left. exact Hin.
Qed.
Lemma find_next_line (s after : str) : Forall (fun c => (c < 128)%N) s ->
  (after = [] \/ exists y, after = 10%N :: y) ->
  forall m pre : str, s = pre ++ m ++ after -> ~ In 10%N m ->
  find_next s (length m + length after) (length pre) =
    Some (match after with [] => None | _ => Some (length pre + length m) end).
Proof.
  intros Ha Hb. induction m as [|c m IH]; intros pre E Hn.
  - simpl. destruct Hb as [->|(y & ->)]; [reflexivity|]. simpl. simpl in E.
    rewrite E in Ha |- *. pose proof (ascii_at pre 10%N y Ha) as X. unfold str, chr in *. rewrite X. cbn [streq]. rewrite Nat.add_0_r. reflexivity.
  - simpl. simpl in E. pose proof (ascii_at pre c (m ++ after)) as H. rewrite <- E in H. rewrite (H Ha).
    assert (Ec : streq [c] [10%N] = false) by (apply streq_neq; intros E1; injection E1 as ->; apply Hn; left; reflexivity).
    rewrite Ec. specialize (IH (pre ++ [c])). rewrite app_length in IH. simpl in IH. rewrite IH.
    + destruct after; [reflexivity|]. f_equal. f_equal. lia.
    + rewrite <- app_assoc. exact E.
    + intros Hin. apply Hn. right. exact Hin.
Qed.
Lemma str_width_ascii w (s : str) : (forall c, (c < 128)%N -> w c = 1) -> Forall (fun c => (c < 128)%N) s -> str_width w s = length s.
Proof. intros Hw. induction 1 as [|c s H Hs IH]; simpl; [reflexivity|]. rewrite IH, (Hw c H). reflexivity. Qed.

Lemma digits_ascii n : Forall (fun c => (c < 128)%N) (nat_str n).
Proof.
  unfold nat_str, N_str. induction (N.to_uint (N.of_nat n)); simpl; constructor; try assumption; reflexivity.
Qed.
Lemma err_info_line w file s line byte col text notes :
  (forall c, (c < 128)%N -> w c = 1) -> line_at s byte col text ->
  exists tail, err_info w file s line byte notes = Some (report_lines file line col text tail)
    /\ (notes = [] -> tail = []).
Proof.
  intros Hw (before & l1 & c & l2 & after & E & Et & Eb & Ec & Hn & Hb & Haf & Ha).
  assert (E1 : s = before ++ l1 ++ c :: l2 ++ after) by (rewrite E, Et, <- app_assoc; reflexivity).
  assert (Hp : find_prev s byte = Some (match before with [] => None | _ => Some (length before - 1) end)).
  { rewrite Eb. apply find_prev_line with (c := c) (rest := l2 ++ after); try assumption.
    intros Hi. apply Hn. rewrite Et. apply in_app_or in Hi. apply in_or_app. destruct Hi as [Hi|[Hi|[]]]; [left|right; left]; assumption. }
  assert (Hnx : find_next s (blen s - byte) byte
                = Some (match after with [] => None | _ => Some (length before + length text) end)).
  { rewrite (ascii_blen s Ha).
    assert (X1 : length s - byte = length (c :: l2) + length after)
      by (rewrite E1, Eb, !app_length; simpl; rewrite app_length; lia).
    assert (X2 : byte = length (before ++ l1)) by (rewrite app_length; lia).
    rewrite X1, X2. etransitivity; [apply (find_next_line s after Ha Haf (c :: l2) (before ++ l1))|].
    - rewrite E1, <- app_assoc. reflexivity.
    - intros Hi. apply Hn. rewrite Et. apply in_or_app. right. exact Hi.
    - destruct after; [reflexivity|]. do 2 f_equal. rewrite Et, !app_length. simpl. lia. }
  assert (Hpo : match (match before with [] => None | _ => Some (length before - 1) end) with Some o => o + 1 | None => 0 end
                = length before).
  { destruct before; simpl; lia. }
  assert (Hno : match (match after with [] => None | _ => Some (length before + length text) end) with Some o => o | None => blen s end
                = length before + length text).
  { destruct after; [|reflexivity]. rewrite (ascii_blen s Ha), E, app_nil_r, app_length. reflexivity. }
  pose proof Ha as Ha'. rewrite E in Ha'. apply Forall_app in Ha'. destruct Ha' as [Hbf Ha']. apply Forall_app in Ha'.
  destruct Ha' as [Htx Haft].
  pose proof (slice_mid before text after) as Hs1. rewrite <- E, (ascii_blen _ Hbf), (ascii_blen _ Htx) in Hs1.
  pose proof (slice_mid before (l1 ++ [c]) (l2 ++ after)) as Hs2. rewrite <- !app_assoc in Hs2. simpl in Hs2.
  rewrite <- E1 in Hs2.
  assert (Hl1 : Forall (fun c => (c < 128)%N) (l1 ++ [c])).
  { rewrite Et in Htx. apply Forall_app in Htx. destruct Htx as [X Y]. inversion Y; subst. apply Forall_app. split; [exact X|]. repeat constructor. assumption. }
  rewrite (ascii_blen _ Hbf), (ascii_blen _ Hl1), app_length in Hs2. simpl in Hs2.
  unfold err_info. rewrite Hp, Hnx. cbv zeta. rewrite Hpo, Hno, Hs1.
  replace (byte - length before + 1) with (length l1 + 1) by lia. rewrite Hs2.
  rewrite (str_width_ascii w _ Hw Hl1), app_length. simpl (length [c]).
  eexists. split.
  - unfold report_lines. rewrite Ec.
    assert (Hbl : blen ([32%N] ++ nat_str (line + 1) ++ lit " | ") - 3 = length (nat_str (line + 1)) + 1).
    { rewrite !blen_app, (ascii_blen _ (digits_ascii _)). simpl. lia. }
    rewrite Hbl. cbv zeta. rewrite <- !app_assoc. cbn [app]. reflexivity.
  - intros ->. reflexivity.
Qed.

(** ** Lines *)
Lemma counted_clean toks : ~ uncounted_newline toks -> clean toks /\ forall t, In t toks -> kind_mode (t_kind t) <> MLink.
Proof.
  intros H. split.
  - intros (a & t & mid & u & b & -> & H1 & H2 & H3). apply H. right. exists a, t, mid, u, b.
    split; [reflexivity|]. split.
    { unfold noskip in H1. destruct (t_kind t) as [k|k|k|k|k|k|k|k|k]; try discriminate.
      destruct k; try discriminate; [left | right]; reflexivity. }
    split; [|exact H3]. eapply Forall_impl; [|exact H2]. intros x Hx. unfold skipt in Hx.
    destruct (t_kind x) as [k|k|k|k|k|k|k|k|k]; try discriminate. destruct k; try exact I; discriminate.
  - intros t Hin E. apply H. left. exists t. split; [exact Hin|].
    destruct (t_kind t); try discriminate E. exact I.
Qed.
Lemma token_before_end src toks t : lex src = Some toks -> In t toks -> t_start t < blen src.
Proof.
  intros Hl Hin. pose proof (good_in _ _ _ (lex_good _ _ Hl) Hin) as (_ & H1 & H2). pose proof (bnd_le _ _ H1). lia.
Qed.
Lemma compile_lines env o src n fs toks x : compile env o src = POk n fs -> lex src = Some toks ->
  ~ uncounted_newline toks ->
  In x (node_leaves n) \/ (exists b, In (false, b) (node_blocks false n) /\ x = NBlock b) ->
  match x with
  | NText t => po_line o + newlines_before 0 src (fst (tx_span t)) <= fst (tx_line t)
               <= po_line o + newlines_before 0 src (fst (tx_span t) + 1)
  | _ => fst (node_lines x) = po_line o + newlines_before 0 src (node_start x)
  end
  /\ forall e, node_end src x = Some e -> snd (node_lines x) = po_line o + newlines_before 0 src e + 1.
Proof.
  intros H Hl Hu Hx. destruct (counted_clean _ Hu) as [Hc Hk].
  destruct (compile_leaves _ _ _ _ _ H) as (toks' & q & Hl' & H1 & H2). rewrite Hl in Hl'. injection Hl' as <-.
  assert (Hn : forall p, nlat toks p = newlines_before 0 src p).
  { intros p. apply tokenizes_lines with (m := MBlock); [apply lex_tokenizes; exact Hl | exact Hk]. }
  assert (Hf : line_fact src toks (po_line o) x).
  { rewrite Forall_forall in H1, H2. destruct Hx as [Hx|(b & Hb & ->)]; [apply (H1 _ Hx)|].
    destruct (H2 _ Hb) as (_ & _ & Hf & _). apply (Hf eq_refl). }
  destruct (Hf Hc) as [F1 F2]. split.
  - destruct x; rewrite ?Hn in F1; exact F1.
  - intros e He. rewrite <- Hn. apply F2, He.
Qed.
Lemma compile_last_line env o src ns fs toks : compile env o src = POk (NDoc ns) fs -> lex src = Some toks ->
  ~ uncounted_newline toks ->
  exists q, nodes_tile src 0 q ns /\ (q = blen src -> p_line (f_p fs) = po_line o + newlines_before 0 src (blen src)).
Proof.
  intros H Hl Hu. destruct (counted_clean _ Hu) as [Hc Hk].
  destruct (compile_doc _ _ _ _ _ H) as (toks' & ns' & Hl' & E & q & Ht & _ & Hq). injection E as <-.
  rewrite Hl in Hl'. injection Hl' as <-. exists q. split; [exact Ht|]. intros Eq. destruct Hq as [[_ Hq]|(t & Hin & Hs & _)].
  - rewrite (Hq Hc). f_equal. apply tokenizes_lines with (m := MBlock); [apply lex_tokenizes; exact Hl | exact Hk].
  - pose proof (token_before_end _ _ _ Hl Hin). lia.
Qed.


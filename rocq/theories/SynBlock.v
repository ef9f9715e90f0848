(** * SynBlock: parsing of printed blocks and documents. *)
From Coq Require Import Lia String.
From Verif Require Import Str Regex Lexer Json Ast ErrInfo Parser StrFacts RegexFacts Spec_Lexer LexerFacts CallFacts BlockFacts Spec_Source SynLex SynStr SynPath SynCall SynTag SynDoc SynItem.
Open Scope nat_scope. Open Scope list_scope.
Notation at_ := SynPath.at_.
Notation nontext := (fun k => negb (is_text k)).

(** ** The parser loop in continuation form *)
Definition final (Res : pres fstate (option node)) : Prop := exists n fs, Res = POk (Some n) fs /\ f_stack fs = [].
Definition after (cx : pctx) (stk : list (str * block)) (n : node) (L : list token) (line byte : nat) (Res : pres fstate (option node)) : Prop :=
  match stk with
  | [] => Res = POk (Some n) (mkF (mkPst L line byte) [] None)
  | (name, b) :: s => forall fuel, length L + 1 <= fuel ->
      block_loop fuel cx (mkF (mkPst L line byte) ((name, block_push n b) :: s) None) = Res
  end.
Lemma after_final cx n L line byte Res : after cx [] n L line byte Res -> final Res.
Proof. cbn. intros ->. eexists _, _. split; reflexivity. Qed.

Definition item_good (ly : layout) (pe : penv) (i : item) (s : str) : Prop := forall p, exists k e ts,
  is_text (TBlock k) = false
  /\ (forall rest L, nobrace rest -> tokenizes MBlock (p + blen s) rest L ->
        tokenizes MBlock p (s ++ rest) (Tok (TBlock k) p e :: ts ++ L))
  /\ forall cx L line byte, px_env cx = pe -> at_ (px_src cx) p s ->
       exists node line' byte', node_is ly pe (px_src cx) node i
         /\ forall stk Res, final Res -> after cx stk node L line' byte' Res -> forall fuel, length (ts ++ L) + 1 <= fuel ->
              (stk = [] -> advance fuel cx (Tok (TBlock k) p e) (mkF (mkPst (ts ++ L) line byte) stk None) = Res)
              /\ (stk <> [] -> block_loop (S fuel) cx (mkF (mkPst (Tok (TBlock k) p e :: ts ++ L) line byte) stk None) = Res).

Lemma block_loop_cons fuel cx t ts line byte stk :
  block_loop (S fuel) cx (mkF (mkPst (t :: ts) line byte) stk None) =
  pbind (advance fuel cx t (mkF (mkPst ts line byte) stk None)) (fun n fs =>
      match n with
      | None => POk None fs
      | Some node =>
          match f_stack fs with
          | [] => POk (Some node) fs
          | (name, b) :: stk =>
              block_loop fuel cx (mkF (f_p fs) ((name, attach node (line_range (f_p fs)) b) :: stk) (f_next fs))
          end
      end).
Proof. rewrite block_loop_eq. reflexivity. Qed.
Lemma leaf_item ly pe i s : leaf_good ly pe i s -> item_good ly pe i s.
Proof.
  intros H p. destruct (H p) as (k & e & ts & Hk & Hlex & Hparse). exists k, e, ts. split; [exact Hk|]. split; [exact Hlex|].
  intros cx L line byte He Hat. destruct (Hparse cx L line byte He Hat) as (node & line' & byte' & Hn & Hu & Hadv).
  exists node, line', byte'. split; [exact Hn|]. intros stk Res Hf Haft fuel Hfuel.
  destruct fuel as [|fuel]; [lia|]. split.
  - intros ->. rewrite Hadv. symmetry. exact Haft.
  - intros Hs. rewrite block_loop_cons, Hadv. cbn [pbind f_stack f_p f_next]. destruct stk as [|[name b] stk]; [congruence|].
    cbn [after] in Haft. rewrite attach_push by exact Hu. apply Haft. rewrite app_length in Hfuel. lia.
Qed.

(** ** Lists of pieces *)
Definition push_all (ns : list node) (b : block) : block := fold_left (fun b n => block_push n b) ns b.
Definition items_good (ly : layout) (pe : penv) (before : bool) (l : list item) (w : str) : Prop := forall p, exists ts,
  (forall rest L, nobrace rest -> (before = false -> rest = []) -> tokenizes MBlock (p + blen w) rest L ->
     tokenizes MBlock p (w ++ rest) (ts ++ L))
  /\ (match l with i :: _ => is_itext i = false | [] => True end -> forall L, stops nontext L -> stops nontext (ts ++ L))
  /\ forall cx L line byte, px_env cx = pe -> at_ (px_src cx) p w -> stops nontext L ->
       exists ns line' byte', Forall2 (node_is ly pe (px_src cx)) ns l
         /\ (forall name b stk Res, final Res ->
              (forall fuel, length L + 1 <= fuel -> block_loop fuel cx (mkF (mkPst L line' byte') ((name, push_all ns b) :: stk) None) = Res) ->
              forall fuel, length (ts ++ L) + 1 <= fuel ->
                block_loop fuel cx (mkF (mkPst (ts ++ L) line byte) ((name, b) :: stk) None) = Res)
         /\ (forall fuel acc, L = [] -> length ts + 1 <= fuel ->
               exists fs, parse_loop fuel cx acc (mkF (mkPst ts line byte) [] None) = POk (acc ++ ns) fs).

Lemma parse_loop_eq fuel cx acc fs : parse_loop (S fuel) cx acc fs =
  match fst (ftoken fs) with
  | None => POk acc (snd (ftoken fs))
  | Some t => pbind (advance (adv_fuel (snd (ftoken fs))) cx t (snd (ftoken fs))) (fun n fs =>
      match n with None => POk acc fs | Some node => parse_loop fuel cx (acc ++ [node]) fs end)
  end.
Proof. cbn [parse_loop]. destruct (ftoken fs) as [[t|] fs']; reflexivity. Qed.
(** a token that has been read ahead *)
Lemma parse_loop_next fuel cx acc L line byte stk :
  parse_loop fuel cx acc (mkF (mkPst (tl L) line byte) stk (hd_error L)) = parse_loop fuel cx acc (mkF (mkPst L line byte) stk None).
Proof. destruct L as [|t L]; [reflexivity|]. destruct fuel; [reflexivity|]. rewrite !parse_loop_eq. reflexivity. Qed.
Lemma block_loop_next fuel cx L line byte stk :
  block_loop fuel cx (mkF (mkPst (tl L) line byte) stk (hd_error L)) = block_loop fuel cx (mkF (mkPst L line byte) stk None).
Proof. destruct L as [|t L]; [reflexivity|]. destruct fuel; [reflexivity|]. rewrite !block_loop_eq. reflexivity. Qed.

Lemma text_advance cx s p L line byte : s <> [] -> at_ (px_src cx) p s -> stops nontext L ->
  exists c s' n line' byte', ttoks p s = Tok (if N.eqb c 10 then TBlock BNewline else TBlock BText) p (p + clen c) :: s'
    /\ text_str (px_src cx) n = Some s
    /\ forall f stk, advance (S f) cx (Tok (if N.eqb c 10 then TBlock BNewline else TBlock BText) p (p + clen c)) (mkF (mkPst (s' ++ L) line byte) stk None)
         = POk (Some (NText n)) (mkF (mkPst (tl L) line' byte') stk (hd_error L)).
Proof.
  intros Hs Hat HL. destruct s as [|c s]; [congruence|].
  set (t0 := Tok (if N.eqb c 10 then TBlock BNewline else TBlock BText) p (p + clen c)).
  set (ln := if is_newline (t_kind t0) then S line else line).
  destruct (until_ctoks nontext (TBlock BText) (TBlock BNewline) s eq_refl eq_refl (p, p + clen c) (p + clen c) L ln byte eq_refl) as (l1 & b1 & E1).
  destruct (until_stops nontext (p, p + clen c + blen s) L l1 b1 HL) as (l2 & E2). cbn [fst] in E1. rewrite E2 in E1.
  exists c, (ttoks (p + clen c) s), (mkText (p, p + clen c + blen s) (ln, l2 + 1)), l2, b1. split; [reflexivity|]. split.
  - unfold text_str. cbn [tx_span]. apply (at_sl _ _ (c :: s)); [exact Hat|cbn; lia].
  - intros f stk. rewrite advance_eq. fold t0.
    cbn [f_p f_stack f_next]. change (tspan t0) with (p, p + clen c).
    assert (Hst : (if is_newline (t_kind t0) then inc_line (mkPst (ttoks (p + clen c) s ++ L) line byte) else mkPst (ttoks (p + clen c) s ++ L) line byte)
      = mkPst (ttoks (p + clen c) s ++ L) ln byte) by (subst ln; destruct (is_newline (t_kind t0)); reflexivity).
    cbv zeta. rewrite Hst.
    replace (is_text (t_kind t0)) with true by (subst t0; cbn [t_kind]; destruct (N.eqb c 10); reflexivity).
    cbn [p_toks p_line p_byte]. rewrite E1. reflexivity.
Qed.

(** every tag starts with one of three characters and ends in one of two *)
Lemma open_tag_first l m mark k s : In (l, mark, k) opens -> forall ly, opening ly l m mark s -> exists r, s = 123%N :: r.
Proof.
  intros Hin ly (g & g' & -> & _). unfold open_tag. cbn [In opens] in Hin.
  destruct Hin as [[= <- _ _]|[[= <- _ _]|[[= <- _ _]|[[= <- _ _]|[[= <- _ _]|[[= <- _ _]|[]]]]]]]; eexists; reflexivity.
Qed.
Lemma tag_first ly l m mark k p W r s : In (l, mark, k) opens -> tag_around ly l m mark p W r s -> exists x, s = 123%N :: x.
Proof. intros Hin (a & f & u & z & -> & Ha & _). destruct (open_tag_first l m mark k a Hin ly Ha) as (x & ->). eexists. reflexivity. Qed.
Lemma close_first ly m w s : close_writes ly "{{" m w "}}" s -> exists x, s = 123%N :: x.
Proof. intros (a & z & -> & Ha & _). destruct (open_tag_first "{{" m [47%N] BEndBlockScope a ltac:(cbn; tauto) ly Ha) as (x & ->). eexists. reflexivity. Qed.
Lemma else_first ly c m s : else_writes ly c m s -> exists x, s = 123%N :: x.
Proof. intros (a & f & z & -> & Ha & _). destruct (open_tag_first "{{" m [] BStartStatement a ltac:(cbn; tauto) ly Ha) as (x & ->). eexists. reflexivity. Qed.
Lemma item_first ly i s : item_writes ly i s -> is_itext i = false -> exists c r, s = c :: r /\ In c [123; 91; 92]%N.
Proof.
  intros H Ht. inversion H; subst; try discriminate.
  - match goal with X : tag_writes _ _ _ _ _ _ _ _ |- _ => eapply (tag_first _ _ _ _ BStartStatement) in X; [destruct X as (x & ->)|cbn; tauto] end. eexists _, _; split; [reflexivity|cbn; tauto].
  - match goal with X : tag_writes _ _ _ _ _ _ _ _ |- _ => eapply (tag_first _ _ _ _ BStartStatement) in X; [destruct X as (x & ->)|cbn; tauto] end. eexists _, _; split; [reflexivity|cbn; tauto].
  - match goal with X : tag_around _ _ _ _ _ _ _ _ |- _ => eapply (tag_first _ _ _ _ BStartStatement) in X; [destruct X as (x & ->)|cbn; tauto] end. eexists _, _; split; [reflexivity|cbn; tauto].
  - match goal with X : tag_around _ _ _ _ _ _ _ _ |- _ => eapply (tag_first _ _ _ _ BStartStatement) in X; [destruct X as (x & ->)|cbn; tauto] end. eexists _, _; split; [reflexivity|cbn; tauto].
  - eexists _, _; split; [reflexivity|cbn; tauto].
  - eexists _, _; split; [reflexivity|cbn; tauto].
  - eexists _, _; split; [reflexivity|cbn; tauto].
  - destruct esc; eexists _, _; split; try reflexivity; cbn; tauto.
  - match goal with X : tag_writes _ _ _ _ _ _ _ _ |- _ => eapply (tag_first _ _ _ _ BStartRawBlock) in X; [destruct X as (x & ->)|cbn; tauto] end. eexists _, _; split; [reflexivity|cbn; tauto].
  - match goal with X : tag_writes _ _ _ _ _ _ _ _ |- _ => eapply (tag_first _ _ _ _ BStartBlockScope) in X; [destruct X as (x & ->)|cbn; tauto] end. eexists _, _; split; [reflexivity|cbn; tauto].
Qed.
Lemma items_first ly pe before l ss rest : items_ok pe true before l -> Forall2 (item_writes ly) l ss -> nobrace rest -> nobrace (concat ss ++ rest).
Proof.
  intros H Hw Hr. inversion H as [|? ? s l' Hp Ha Hb Hn Hl|? ? i l' Ht Hi Hl]; subst; inversion Hw as [|? w ? ws Hi1 Hl1]; subst; [exact Hr| |].
  - inversion Hi1; subst. cbn [concat]. specialize (Ha eq_refl). destruct Hp as (Hne & _). destruct w as [|c w]; [congruence|].
    cbn. intros ->. apply Ha. now exists w.
  - cbn [concat]. destruct (item_first ly i w Hi1 Ht) as (c & r & -> & Hc). cbn. intros ->. cbn in Hc. intuition discriminate.
Qed.

Lemma items_list ly pe after before l ss : items_ok pe after before l -> Forall2 (item_writes ly) l ss ->
  (forall i s, In i l -> In s ss -> is_itext i = false -> item_ok pe i -> item_writes ly i s -> item_good ly pe i s) -> items_good ly pe before l (concat ss).
Proof.
  revert after ss. induction l as [|i l IH]; intros aft ss Hok Hss Hgood p; inversion Hss as [|? w ? ws Hw Hws]; subst.
  - exists []. split; [|split].
    + intros rest L Hr _ HL. cbn in *. rewrite Nat.add_0_r in HL. exact HL.
    + intros _ L HL. exact HL.
    + intros cx L line byte He Hat HL. exists [], line, byte. split; [constructor|]. split.
      * intros name b stk Res Hf Hk fuel Hfuel. apply Hk. exact Hfuel.
      * intros fuel acc -> Hfuel. destruct fuel as [|fuel]; [cbn in Hfuel; lia|]. rewrite parse_loop_eq. cbn. rewrite app_nil_r. eexists. reflexivity.
  - inversion Hok as [|? ? s ? Hp Ha Hb Hn Hl|? ? ? ? Ht Hi Hl]; subst.
    + (* text *)
      inversion Hw; subst w. clear Hw. cbn [concat].
      set (q := p + blen s). destruct (IH false ws Hl Hws (fun i s Hi Hs => Hgood i s (or_intror Hi) (or_intror Hs)) q) as (ts & Hlex & Hst & Hparse).
      exists (ttoks p s ++ ts). split; [|split].
      * intros rest L Hr Hbf HL. rewrite <- !app_assoc. apply text_lex; [exact Hp| |].
        -- destruct l as [|i l].
           ++ inversion Hws; subst. cbn [concat app]. destruct before; [|left; now apply Hbf]. right. apply Hb. now left.
           ++ right. apply Hb. right. discriminate.
        -- apply Hlex; [exact Hr|exact Hbf|]. rewrite blen_app, Nat.add_assoc in HL. exact HL.
      * discriminate.
      * intros cx L line byte He Hat HL. pose proof (at_l _ _ _ _ Hat) as Hat1. apply at_r in Hat. fold q in Hat.
        destruct (text_advance cx s p (ts ++ L) line byte) as (c & s' & n & l1 & b1 & Etk & Etx & Hadv); [now destruct Hp|exact Hat1|now apply Hst|].
        destruct (Hparse cx L l1 b1 He Hat HL) as (ns & l2 & b2 & Hns & Hblk & Htop).
        exists (NText n :: ns), l2, b2. split; [constructor; [now constructor|exact Hns]|]. rewrite Etk. split.
        -- intros name b stk Res Hf Hk fuel Hfuel. rewrite <- app_assoc. cbn [app]. rewrite <- app_assoc in Hfuel. cbn [app length] in Hfuel. rewrite app_length in Hfuel.
           destruct fuel as [|[|fuel]]; [lia|lia|].
           rewrite block_loop_cons, Hadv. cbn [pbind f_stack f_p f_next attach]. rewrite block_loop_next.
           eapply Hblk; [exact Hf|exact Hk|lia].
        -- intros fuel acc -> Hfuel. cbn [app length] in *. rewrite app_length in Hfuel. destruct fuel as [|fuel]; [lia|].
           rewrite app_nil_r in Hadv. rewrite parse_loop_eq. cbn [ftoken f_next f_p f_stack pnext p_toks p_line p_byte fst snd].
           match goal with |- context [adv_fuel ?x] => destruct (adv_fuel x) as [|af] eqn:Eaf; [unfold adv_fuel in Eaf; lia|] end.
           rewrite Hadv. cbn [pbind]. rewrite parse_loop_next. destruct (Htop fuel (acc ++ [NText n]) eq_refl ltac:(lia)) as (fs & E).
           exists fs. rewrite E, <- app_assoc. reflexivity.
    + (* tag *)
      cbn [concat]. set (q := p + blen w). destruct (IH true ws Hl Hws (fun i s Hi Hs => Hgood i s (or_intror Hi) (or_intror Hs)) q) as (ts & Hlex & Hst & Hparse).
      destruct (Hgood i w (or_introl eq_refl) (or_introl eq_refl) Ht Hi Hw p) as (k & e & ts1 & Hk & Hlex1 & Hparse1).
      exists (Tok (TBlock k) p e :: ts1 ++ ts). split; [|split].
      * intros rest L Hr Hbf HL. cbn [app]. rewrite <- !app_assoc. apply Hlex1.
        -- eapply items_first; eassumption.
        -- apply Hlex; [exact Hr|exact Hbf|]. rewrite blen_app, Nat.add_assoc in HL. exact HL.
      * intros _ L HL. cbn [app stops t_kind]. now rewrite Hk.
      * intros cx L line byte He Hat HL. pose proof (at_l _ _ _ _ Hat) as Hat1. apply at_r in Hat. fold q in Hat.
        destruct (Hparse1 cx (ts ++ L) line byte He Hat1) as (node & l1 & b1 & Hnode & Hstep).
        destruct (Hparse cx L l1 b1 He Hat HL) as (ns & l2 & b2 & Hns & Hblk & Htop).
        exists (node :: ns), l2, b2. split; [now constructor|]. split.
        -- intros name b stk Res Hf Hkk fuel Hfuel. cbn [app] in *. rewrite <- app_assoc in *. cbn [length] in Hfuel.
           destruct fuel as [|fuel]; [lia|]. apply (Hstep ((name, b) :: stk) Res Hf).
           ++ cbn [after]. intros f2 Hf2. eapply Hblk; [exact Hf|exact Hkk|exact Hf2].
           ++ lia.
           ++ discriminate.
        -- intros fuel acc -> Hfuel. cbn [app length] in *. rewrite app_length in Hfuel. destruct fuel as [|fuel]; [lia|].
           rewrite app_nil_r in Hstep. rewrite parse_loop_eq. cbn [ftoken f_next f_p f_stack pnext p_toks p_line p_byte fst snd].
           set (fa := adv_fuel _). assert (Hfa : length (ts1 ++ ts) + 1 <= fa) by (subst fa; unfold adv_fuel; cbn [f_p p_toks]; lia).
           assert (Haft : SynBlock.after cx [] node ts l1 b1 (POk (Some node) (mkF (mkPst ts l1 b1) [] None))) by reflexivity.
           destruct (Hstep [] _ (after_final _ _ _ _ _ _ Haft) Haft fa Hfa) as [Hadv _]. rewrite (Hadv eq_refl). cbn [pbind].
           destruct (Htop fuel (acc ++ [node]) eq_refl ltac:(lia)) as (fs & E). exists fs. rewrite E, <- app_assoc. reflexivity.
Qed.

(** ** Conditionals of a block *)
Notation branch := (option callx * tildes * list item)%type.
Definition add_all (l : list (block * list node)) (b : block) : block :=
  fold_left (fun b c => push_all (snd c) (block_add_condition (fst c) b)) l b.
Definition same_frame (b b' : block) : Prop :=
  b_call b = b_call b' /\ b_open b = b_open b' /\ b_raw b = b_raw b' /\ b_line b = b_line b' /\ b_close b = b_close b'.
Lemma push_all_plain ns : forall b, b_conds b = [] ->
  b_nodes (push_all ns b) = b_nodes b ++ ns /\ b_conds (push_all ns b) = [] /\ same_frame (push_all ns b) b.
Proof.
  induction ns as [|n ns IH]; intros b Hb.
  - cbn. rewrite app_nil_r. repeat split; assumption.
  - cbn [push_all fold_left]. destruct (IH (block_push n b)) as (E1 & E2 & E3).
    { unfold block_push. rewrite Hb. destruct b; exact Hb. }
    fold (push_all ns (block_push n b)). rewrite E1, E2. unfold block_push in *. rewrite Hb in *. destruct b. cbn in *. subst.
    rewrite <- app_assoc. split; [reflexivity|]. split; [reflexivity|]. exact E3.
Qed.
Lemma map_last_snoc f l b : map_last_block f (l ++ [NBlock b]) = l ++ [NBlock (f b)].
Proof.
  induction l as [|x l IH]; [reflexivity|]. cbn [app map_last_block]. rewrite IH. destruct (l ++ [NBlock b]) eqn:E; [destruct l; discriminate|]. destruct x; reflexivity.
Qed.
Lemma push_all_cond ns : forall b pre cur, b_conds b = pre ++ [NBlock cur] -> b_conds cur = [] ->
  b_nodes (push_all ns b) = b_nodes b /\ b_conds (push_all ns b) = pre ++ [NBlock (push_all ns cur)] /\ same_frame (push_all ns b) b.
Proof.
  induction ns as [|n ns IH]; intros b pre cur Hb Hc.
  - cbn. repeat split; assumption.
  - cbn [push_all fold_left]. assert (Eb : block_push n b = block_map_last_cond (block_push_raw n) b).
    { unfold block_push. rewrite Hb. destruct pre; reflexivity. }
    assert (Ec : block_push n cur = block_push_raw n cur) by (unfold block_push; now rewrite Hc).
    destruct (IH (block_push n b) pre (block_push n cur)) as (E1 & E2 & E3).
    { rewrite Eb, Ec. destruct b; cbn in *. subst. now rewrite map_last_snoc. }
    { rewrite Ec. destruct cur; exact Hc. }
    fold (push_all ns (block_push n b)). fold (push_all ns (block_push n cur)). rewrite E1, E2. rewrite Eb in *. destruct b; cbn in *.
    split; [reflexivity|]. split; [reflexivity|exact E3].
Qed.
Fixpoint final_conds (sp : span) (cur : block) (l : list (block * list node)) : list node :=
  match l with
  | [] => [NBlock (block_set_close sp cur)]
  | (c, ns) :: l => NBlock (block_set_close (fst (c_open (b_call c)) - 1, fst (c_open (b_call c))) cur) :: final_conds sp (push_all ns c) l
  end.
Definition cond_fresh (c : block * list node) : Prop := b_conds (fst c) = [] /\ 0 < fst (c_open (b_call (fst c))).
Lemma same_frame_trans a b c : same_frame a b -> same_frame b c -> same_frame a c.
Proof. unfold same_frame. intuition congruence. Qed.
Lemma add_all_cond sp l : forall b pre cur, Forall cond_fresh l -> b_conds b = pre ++ [NBlock cur] ->
  b_nodes (block_exit sp (add_all l b)) = b_nodes b /\ b_conds (block_exit sp (add_all l b)) = pre ++ final_conds sp cur l
  /\ same_frame (add_all l b) b.
Proof.
  induction l as [|[c ns] l IH]; intros b pre cur Hl Hb.
  - cbn [add_all fold_left final_conds]. unfold block_exit. destruct b; cbn in *. subst. rewrite map_last_snoc. repeat split.
  - inversion Hl as [|? ? [Hc Hp] Hl']; subst. cbn [fst] in *. cbn [add_all fold_left fst snd]. fold (add_all l (push_all ns (block_add_condition c b))).
    set (cl := block_set_close (fst (c_open (b_call c)) - 1, fst (c_open (b_call c))) cur).
    assert (E0 : b_conds (block_add_condition c b) = (pre ++ [NBlock cl]) ++ [NBlock c] /\ b_nodes (block_add_condition c b) = b_nodes b /\ same_frame (block_add_condition c b) b).
    { unfold block_add_condition, block_close_condition. apply Nat.ltb_lt in Hp. rewrite Hp. destruct b; cbn in *. subst. rewrite map_last_snoc. repeat split. }
    destruct E0 as (E0 & E0' & E0'').
    destruct (push_all_cond ns _ _ _ E0 Hc) as (E1 & E2 & E3).
    destruct (IH (push_all ns (block_add_condition c b)) (pre ++ [NBlock cl]) (push_all ns c) Hl' E2) as (E4 & E5 & E6).
    rewrite E4, E5, E1, E0'. split; [reflexivity|]. split; [cbn [final_conds]; now rewrite <- app_assoc|].
    eapply same_frame_trans; [exact E6|]. eapply same_frame_trans; [exact E3|exact E0''].
Qed.
Lemma add_all_first sp l : forall b, Forall cond_fresh l -> b_conds b = [] ->
  b_nodes (block_exit sp (add_all l b)) = b_nodes b
  /\ b_conds (block_exit sp (add_all l b)) = match l with [] => [] | (c, ns) :: l => final_conds sp (push_all ns c) l end
  /\ same_frame (add_all l b) b.
Proof.
  intros b Hl Hb. destruct l as [|[c ns] l].
  - cbn. unfold block_exit. destruct b; cbn in *. subst. repeat split.
  - inversion Hl as [|? ? [Hc Hp] Hl']; subst. cbn [fst] in *. cbn [add_all fold_left fst snd]. fold (add_all l (push_all ns (block_add_condition c b))).
    assert (E0 : b_conds (block_add_condition c b) = [] ++ [NBlock c] /\ b_nodes (block_add_condition c b) = b_nodes b /\ same_frame (block_add_condition c b) b).
    { unfold block_add_condition, block_close_condition. apply Nat.ltb_lt in Hp. rewrite Hp. destruct b; cbn in *. subst. repeat split. }
    destruct E0 as (E0 & E0' & E0'').
    destruct (push_all_cond ns _ _ _ E0 Hc) as (E1 & E2 & E3).
    destruct (add_all_cond sp l (push_all ns (block_add_condition c b)) [] (push_all ns c) Hl' E2) as (E4 & E5 & E6).
    rewrite E4, E5, E1, E0'. split; [reflexivity|]. split; [reflexivity|].
    eapply same_frame_trans; [exact E6|]. eapply same_frame_trans; [exact E3|exact E0''].
Qed.

(** what is known about each parsed [else] before the block is closed *)
Definition cond_is (ly : layout) (pe : penv) (src : str) (c : block * list node) (br : branch) : Prop :=
  match fst (fst br) with
  | Some x => call_is ly pe src false true (b_call (fst c)) x
  | None => call_is_empty (b_call (fst c)) = true
  end
  /\ b_raw (fst c) = false /\ b_conds (fst c) = [] /\ b_nodes (fst c) = []
  /\ Forall2 (node_is ly pe src) (snd c) (snd br)
  /\ node_trim src (NBlock (fst c)) = Some (hint_of (snd (fst br)))
  /\ 0 < fst (c_open (b_call (fst c))).
Definition closable (src : str) (q : nat) : Prop := exists u, sl src (q - 1, q) = Some u /\ blen u <= 1.
Fixpoint conds_are (ly : layout) (pe : penv) (src : str) (cs : list (block * list node)) (brs : list branch) : Prop :=
  match cs, brs with
  | [], [] => True
  | c :: cs, br :: brs =>
      cond_is ly pe src c br /\ match cs with c2 :: _ => closable src (fst (c_open (b_call (fst c2)))) | [] => True end
      /\ conds_are ly pe src cs brs
  | _, _ => False
  end.
Lemma conds_fresh ly pe src cs : forall brs, conds_are ly pe src cs brs -> Forall cond_fresh cs.
Proof.
  induction cs as [|c cs IH]; intros [|br brs] H; try contradiction; constructor.
  - destruct H as ((_ & _ & Hc & _ & _ & _ & Hp) & _). now split.
  - destruct H as (_ & _ & H). eapply IH; eassumption.
Qed.
Lemma node_trim_frame src b b' : b_call b = b_call b' -> b_open b = b_open b' -> b_raw b = b_raw b' -> node_trim src (NBlock b) = node_trim src (NBlock b').
Proof. intros H1 H2 H3. cbn. unfold block_trim_before, block_trim_after, block_open_str. now rewrite H1, H2, H3. Qed.
Lemma short_close src b q : b_raw b = false -> b_close b = Some (q - 1, q) -> closable src q -> block_trim_close src b = Some (mkHint false false).
Proof.
  intros Hr Hc (u & Hu & Hl). unfold block_trim_close, block_trim_before_close, block_trim_after_close, block_close_str. rewrite Hc, Hu, Hr.
  unfold tilde_at. replace (2 <? blen u) with false by (symmetry; apply Nat.ltb_ge; lia). replace (3 <? blen u) with false by (symmetry; apply Nat.ltb_ge; lia). reflexivity.
Qed.
Lemma cond_closed ly pe src sp cond m body brs rest m' c ns : cond_is ly pe src (c, ns) (cond, m, body) ->
  (forall b, b_close b = Some sp -> b_raw b = false -> block_trim_close src b = Some (match rest with [] => hint_of m' | _ => mkHint false false end)) ->
  branches_are ly pe src brs rest m' ->
  branches_are ly pe src (NBlock (block_set_close sp (push_all ns c)) :: brs) ((cond, m, body) :: rest) m'.
Proof.
  intros (H1 & H2 & H3 & H4 & H5 & H6 & H7) Hsp Hrest. cbn [fst snd] in *.
  destruct (push_all_plain ns c H3) as (E1 & E2 & E3). rewrite H4 in E1. cbn [app] in E1.
  destruct (push_all ns c) as [n r o cl ca k l]. cbn in E1, E2. subst. destruct E3 as (F1 & F2 & F3 & F4 & F5). cbn in F1, F2, F3, F4, F5.
  apply isB_cons; cbn [b_call b_raw b_conds b_nodes block_set_close].
  - rewrite F1. exact H1.
  - now rewrite F3.
  - reflexivity.
  - exact H5.
  - rewrite <- H6. apply node_trim_frame; assumption.
  - apply Hsp; [reflexivity|]. cbn. now rewrite F3.
  - exact Hrest.
Qed.
Lemma conds_final ly pe src sp m' cs : forall c ns brs, conds_are ly pe src ((c, ns) :: cs) brs ->
  (forall b, b_close b = Some sp -> b_raw b = false -> block_trim_close src b = Some (hint_of m')) ->
  branches_are ly pe src (final_conds sp (push_all ns c) cs) brs m'.
Proof.
  induction cs as [|[c2 ns2] cs IH]; intros c ns [|[[cond m] body] brs] H Hsp; try contradiction.
  - destruct H as (H & _ & H8). destruct brs; [|contradiction]. cbn [final_conds].
    eapply cond_closed; [exact H|exact Hsp|constructor].
  - destruct H as (H & Hcl & H8). cbn [final_conds]. cbn [fst] in Hcl. destruct brs as [|br brs]; [contradiction|].
    eapply cond_closed; [exact H| |].
    + intros b Hb Hr. eapply short_close; eassumption.
    + apply IH; assumption.
Qed.

(** ** The tags of a block *)
Definition piece : Type := str * list str.
Definition ptext (x : piece) : str := fst x ++ concat (snd x).
Definition branch_writes (ly : layout) (br : branch) (x : piece) : Prop :=
  else_writes ly (fst (fst br)) (snd (fst br)) (fst x) /\ Forall2 (item_writes ly) (snd br) (snd x).
Lemma branches_pieces ly brs : forall bb, branches_write ly brs bb -> exists ps, Forall2 (branch_writes ly) brs ps /\ bb = flat_map ptext ps.
Proof.
  induction brs as [|br brs IH]; intros bb H; inversion H; subst.
  - exists []. split; [constructor|reflexivity].
  - match goal with X : branches_write _ brs _ |- _ => destruct (IH _ X) as (ps & Hps & ->) end.
    exists ((e, ss) :: ps). split; [constructor; [split; assumption|exact Hps]|]. cbn [flat_map ptext fst snd]. unfold ptext. cbn [fst snd]. now rewrite <- app_assoc.
Qed.

Lemma else_step ly pe cond m s : (forall x, cond = Some x -> callx_ok pe x) -> else_writes ly cond m s -> forall p, exists e ts,
  (forall rest L, nobrace rest -> tokenizes MBlock (p + blen s) rest L ->
     tokenizes MBlock p (s ++ rest) (Tok (TBlock BStartStatement) p e :: ts ++ L))
  /\ forall cx L line byte, px_env cx = pe -> at_ (px_src cx) p s ->
       exists c line' byte', (match cond with Some x => call_is ly pe (px_src cx) false true c x | None => call_is_empty c = true end)
         /\ c_open c = (p, e)
         /\ (forall ln, node_trim (px_src cx) (NBlock (block_set_call c (block_new (c_open c) false ln))) = Some (hint_of m))
         /\ forall fuel name b stk, length (ts ++ L) + 1 <= fuel ->
              block_loop (S fuel) cx (mkF (mkPst (Tok (TBlock BStartStatement) p e :: ts ++ L) line byte) ((name, b) :: stk) None)
              = block_loop fuel cx (mkF (mkPst L line' byte') ((name, block_add_condition (block_set_call c (block_new (c_open c) false (line', line' + 1))) b) :: stk) None).
Proof.
  intros Hx (a & f & z & -> & Ha & (gz & -> & Hgz) & Hcond) p. apply around_gap in Hgz. unfold close_tag.
  assert (Hin : In ("{{"%string, [], BStartStatement) opens) by (cbn; tauto).
  assert (Htrim : forall cx c ln o mid, opener "{{" m [] o -> at_ (px_src cx) p (o ++ mid ++ tilde (tl_after m) ++ lit "}}") -> c_open c = (p, p + blen o) ->
     c_close c = Some (p + blen (o ++ mid), p + blen (o ++ mid ++ tilde (tl_after m) ++ lit "}}")) ->
     node_trim (px_src cx) (NBlock (block_set_call c (block_new (c_open c) false ln))) = Some (hint_of m)).
  { intros cx c ln o mid Ho Hat H1 H2. destruct (tag_ends (px_src cx) c o mid (tilde (tl_after m) ++ lit "}}") p Hat H1 H2) as (F1 & F2 & _).
    cbn [node_trim block_set_call block_new]. unfold block_trim_before, block_trim_after, block_open_str. cbn [b_open b_raw b_call].
    unfold call_open_str in F1. rewrite F1. unfold call_trim_after. rewrite F2.
    rewrite (block_open_hint _ _ _ _ 2 Ho) by (try reflexivity; cbn; tauto). rewrite closer_ends by (cbn; tauto). reflexivity. }
  assert (Hstep : forall cx e ts L line byte c line' byte', call_parse cx (p, e) (mkPst (ts ++ L) line byte) = POk c (mkPst L line' byte') -> c_conditional c = true ->
     forall fuel name b stk, length (ts ++ L) + 1 <= fuel ->
              block_loop (S fuel) cx (mkF (mkPst (Tok (TBlock BStartStatement) p e :: ts ++ L) line byte) ((name, b) :: stk) None)
              = block_loop fuel cx (mkF (mkPst L line' byte') ((name, block_add_condition (block_set_call c (block_new (c_open c) false (line', line' + 1))) b) :: stk) None)).
  { intros cx e ts L line byte c line' byte' E Hc fuel name b stk Hf. destruct fuel as [|fuel]; [lia|]. rewrite block_loop_cons, advance_eq.
    cbn [t_kind is_newline is_text f_p f_stack f_next]. change (tspan (Tok (TBlock BStartStatement) p e)) with (p, e).
    rewrite E. cbn [lift pbind f_stack f_p f_next attach]. rewrite Hc. reflexivity. }
  destruct cond as [x|].
  - destruct Hcond as (g & u & -> & Hg & Hu). specialize (Hx x eq_refl).
    destruct (open_good ly pe "{{" [] BStartStatement m a (lit "else" ++ g) false true x u gz (tl_after m) (lit "}}")) with (p := p) as (o & ts & Ho & (ra & Era) & Hlex & Hlen & Hparse);
      [exact Hin|exact Ha|right; right; exists g; apply between_gap in Hg; destruct Hg; auto|exact Hu|exact Hx|exact Hgz|cbn; tauto|].
    rewrite <- !app_assoc in *. set (T := a ++ lit "else" ++ g ++ u ++ gz ++ tilde (tl_after m) ++ lit "}}") in *.
    exists (p + blen o), ts. split; [exact Hlex|]. intros cx L line byte He Hat.
    destruct (Hparse cx L line byte He Hat) as (c & ln & b' & E & Hcall & H1 & H2 & H3 & H4 & _). exists c, ln, b'. split; [exact Hcall|]. split; [exact H1|]. split.
    + assert (ET : T = o ++ (ra ++ lit "else" ++ g ++ u ++ gz) ++ tilde (tl_after m) ++ lit "}}") by (subst T; rewrite Era, <- !app_assoc; reflexivity).
      intros ln0. apply (Htrim cx c ln0 o (ra ++ lit "else" ++ g ++ u ++ gz)).
      * exact Ho.
      * now rewrite <- ET.
      * exact H1.
      * rewrite H2, <- ET. rewrite Era, <- !app_assoc. reflexivity.
    + now apply Hstep.
  - subst f. cbn [app]. destruct (else_open_good ly m a gz (tl_after m) Ha Hgz p) as (o & ts & Ho & (ra & Era) & Hlex & Hlen & Hparse).
    set (T := a ++ lit "else" ++ gz ++ tilde (tl_after m) ++ lit "}}") in *.
    exists (p + blen o), ts. split; [exact Hlex|]. intros cx L line byte He Hat.
    destruct (Hparse cx L line byte) as (c & ln & b' & E & H0 & H1 & H3 & H4 & H2). exists c, ln, b'. split; [exact H0|]. split; [exact H1|]. split.
    + assert (ET : T = o ++ (ra ++ lit "else" ++ gz) ++ tilde (tl_after m) ++ lit "}}") by (subst T; rewrite Era, <- !app_assoc; reflexivity).
      intros ln0. apply (Htrim cx c ln0 o (ra ++ lit "else" ++ gz)).
      * exact Ho.
      * now rewrite <- ET.
      * exact H1.
      * rewrite H2, <- ET. rewrite Era, <- !app_assoc. reflexivity.
    + now apply Hstep.
Qed.

(** tags end in an ASCII character, so the written text of a body does when its printed text does *)
Definition last_ascii (s : str) : Prop := exists a z, s = a ++ [z] /\ clen z = 1.
Lemma last_app u v : last_ascii v -> last_ascii (u ++ v).
Proof. intros (a & z & -> & Hz). exists (u ++ a), z. split; [now rewrite app_assoc|exact Hz]. Qed.
Lemma ending_last ly m r s : In (lit r) closers -> ending ly m r s -> last_ascii s.
Proof.
  intros Hr (g & -> & _). apply last_app. unfold close_tag. apply last_app. cbn [In closers] in Hr.
  destruct Hr as [<-|[<-|[<-|[]]]]; eexists _, _; (split; [apply (app_removelast_last 0%N); discriminate|reflexivity]).
Qed.
Lemma else_last ly c m s : else_writes ly c m s -> last_ascii s.
Proof. intros (a & f & z & -> & _ & Hz & _). do 3 apply last_app. eapply ending_last; [|exact Hz]. cbn; tauto. Qed.
Lemma item_last ly i s : item_writes ly i s -> is_itext i = false -> last_ascii s.
Proof.
  assert (Htag : forall l m mark p W r s, In (lit r) closers -> tag_around ly l m mark p W r s -> last_ascii s).
  { intros l m mark p W r w Hr (a & f & u & z & -> & _ & _ & _ & Hz). do 3 apply last_app. eapply ending_last; eassumption. }
  assert (Hcl : forall l m n r s, In (lit r) closers -> close_writes ly l m n r s -> last_ascii s).
  { intros l m n r w Hr (a & z & -> & _ & Hz). do 2 apply last_app. eapply ending_last; eassumption. }
  intros H Ht. inversion H; subst; try discriminate.
  - eapply Htag; [|eassumption]. cbn; tauto.
  - eapply Htag; [|eassumption]. cbn; tauto.
  - eapply Htag; [|eassumption]. cbn; tauto.
  - eapply Htag; [|eassumption]. cbn; tauto.
  - cbn [item_text]. do 2 apply last_app. exists [125%N], 125%N. split; reflexivity.
  - cbn [item_text]. do 2 apply last_app. exists (lit "--}"), 125%N. split; reflexivity.
  - cbn [item_text]. do 2 apply last_app. exists [125%N], 125%N. split; reflexivity.
  - cbn [item_text]. do 3 apply last_app. exists [93%N], 93%N. split; reflexivity.
  - do 2 apply last_app. eapply Hcl; [|eassumption]. cbn; tauto.
  - do 3 apply last_app. eapply Hcl; [|eassumption]. cbn; tauto.
Qed.
Lemma items_end ly pe d : forall a b ss, items_ok pe a b d -> Forall2 (item_writes ly) d ss -> ascii_end (doc_text d) -> ascii_end (concat ss).
Proof.
  induction d as [|i d IH]; intros a b ss Hok Hw Hend; inversion Hw as [|? s ? ws Hi Hr]; subst; [now left|]. cbn [concat].
  destruct d as [|j d].
  - inversion Hr; subst. cbn [concat]. rewrite app_nil_r. destruct (is_itext i) eqn:Ei.
    + destruct i; try discriminate. inversion Hi; subst. unfold doc_text in Hend. cbn [flat_map item_text] in Hend. now rewrite app_nil_r in Hend.
    + right. eapply item_last; eassumption.
  - assert (Hd : exists a' b', items_ok pe a' b' (j :: d)) by (inversion Hok; subst; eauto). destruct Hd as (a' & b' & Hd).
    assert (Hne : doc_text (j :: d) <> []).
    { unfold doc_text. cbn [flat_map]. inversion Hd as [|? ? s0 ? Hp _ _ _ _|? ? ? ? Ht _ _]; subst.
      - destruct Hp as (Hp & _). cbn [item_text]. destruct s0; [congruence|discriminate].
      - destruct j; try discriminate; cbn [item_text]; try (destruct triple); try (destruct escaped); discriminate. }
    assert (Hend' : ascii_end (doc_text (j :: d))).
    { destruct Hend as [E|(x & z & E & Hz)].
      - exfalso. apply Hne. unfold doc_text in *. cbn [flat_map] in *. apply app_eq_nil in E. now destruct E.
      - right. unfold doc_text in E. cbn [flat_map] in E. change (item_text j ++ flat_map item_text d) with (doc_text (j :: d)) in E.
        set (w := doc_text (j :: d)) in *. clearbody w. rewrite (app_removelast_last 0%N Hne) in E. rewrite app_assoc in E. apply app_inj_tail in E. destruct E as [_ E].
        exists (removelast w), z. split; [|exact Hz]. rewrite <- E. now apply app_removelast_last. }
    destruct (IH a' b' ws Hd Hr Hend') as [E|(x & z & E & Hz)].
    + exfalso. inversion Hr as [|? w1 ? ws1 Hj _]; subst. cbn [concat] in E. apply app_eq_nil in E. destruct E as [-> _].
      inversion Hd as [|? ? s0 ? Hp _ _ _ _|? ? ? ? Ht _ _]; subst.
      * inversion Hj; subst. now destruct Hp as (Hp & _).
      * destruct (item_first _ _ _ Hj Ht) as (? & ? & E & _). discriminate.
    + right. exists (s ++ x), z. rewrite E. split; [now rewrite app_assoc|exact Hz].
Qed.
Lemma at_closable src p w : at_ src p w -> last_ascii w -> closable src (p + blen w).
Proof.
  intros H (a & z & -> & Hz). apply at_r in H. exists [z]. split; [|cbn; lia]. rewrite blen_app. change (blen [z]) with (clen z + 0). rewrite Hz.
  replace (p + (blen a + (1 + 0)) - 1) with (p + blen a) by lia. apply (at_sl _ _ [z]); [exact H|]. cbn [blen]. lia.
Qed.
Lemma branch_end ly pe br x : branch_writes ly br x -> items_ok pe true true (snd br) -> ascii_end (doc_text (snd br)) -> last_ascii (ptext x).
Proof.
  intros (He & Hb) Hok Hend. unfold ptext. destruct (items_end ly pe _ _ _ _ Hok Hb Hend) as [E|H].
  - rewrite E, app_nil_r. eapply else_last; eassumption.
  - now apply last_app.
Qed.

Lemma pieces_first ly brs ps rest : Forall2 (branch_writes ly) brs ps -> nobrace rest -> nobrace (flat_map ptext ps ++ rest).
Proof.
  intros H Hr. inversion H as [|? ? ? ? [He _] _]; subst; [exact Hr|]. cbn [flat_map ptext]. unfold ptext. destruct (else_first _ _ _ _ He) as (u & ->). cbn. discriminate.
Qed.
Lemma branches_good ly pe brs : forall ps, Forall2 (branch_writes ly) brs ps ->
  Forall (fun b => (forall x, fst (fst b) = Some x -> callx_ok pe x) /\ items_ok pe true true (snd b)) brs ->
  (forall b, In b (removelast brs) -> ascii_end (doc_text (snd b))) ->
  (forall b x, In b brs -> In x ps -> branch_writes ly b x -> items_good ly pe true (snd b) (concat (snd x))) ->
  forall p, 0 < p -> exists ts,
  (forall rest L, nobrace rest -> tokenizes MBlock (p + blen (flat_map ptext ps)) rest L ->
     tokenizes MBlock p (flat_map ptext ps ++ rest) (ts ++ L))
  /\ (forall L, stops nontext L -> stops nontext (ts ++ L))
  /\ forall cx L line byte, px_env cx = pe -> at_ (px_src cx) p (flat_map ptext ps) -> stops nontext L ->
       exists cs line' byte', conds_are ly pe (px_src cx) cs brs
         /\ match cs with c :: _ => fst (c_open (b_call (fst c))) = p | [] => True end
         /\ forall name b stk Res, final Res ->
              (forall fuel, length L + 1 <= fuel -> block_loop fuel cx (mkF (mkPst L line' byte') ((name, add_all cs b) :: stk) None) = Res) ->
              forall fuel, length (ts ++ L) + 1 <= fuel ->
                block_loop fuel cx (mkF (mkPst (ts ++ L) line byte) ((name, b) :: stk) None) = Res.
Proof.
  induction brs as [|br brs IH]; intros ps Hps Hok Hasc Hgood p Hp; inversion Hps as [|? x ? ps' Hbr Hps']; subst.
  - exists []. split; [|split].
    + intros rest L Hr HL. cbn in *. rewrite Nat.add_0_r in HL. exact HL.
    + intros L HL. exact HL.
    + intros cx L line byte He Hat HL. exists [], line, byte. split; [exact I|]. split; [exact I|]. intros name b stk Res Hf Hk fuel Hfuel. now apply Hk.
  - inversion Hok as [|? ? [Hx Hit] Hok']; subst. destruct Hbr as [Hbe Hbb] eqn:Ebr. clear Ebr. assert (Hbr' : branch_writes ly br x) by (split; assumption).
    destruct (else_step ly pe (fst (fst br)) (snd (fst br)) (fst x) Hx Hbe p) as (e & ts1 & Hlex1 & Hparse1). set (p1 := p + blen (fst x)) in *.
    destruct (Hgood br x (or_introl eq_refl) (or_introl eq_refl) Hbr' p1) as (ts2 & Hlex2 & Hst2 & Hparse2). set (p2 := p1 + blen (concat (snd x))) in *.
    destruct (IH ps' Hps' Hok') with (p := p2) as (ts3 & Hlex3 & Hst3 & Hparse3).
    { intros b Hb. apply Hasc. destruct brs; [contradiction|]. now right. } { intros b y Hb Hy. apply Hgood; now right. } { subst p2 p1. lia. }
    exists (Tok (TBlock BStartStatement) p e :: ts1 ++ ts2 ++ ts3). split; [|split].
    + intros rest L Hr HL. cbn [flat_map]. unfold ptext at 1. rewrite <- !app_assoc. cbn [app]. rewrite <- !app_assoc.
      pose proof (pieces_first ly brs ps' rest Hps' Hr) as Hnb.
      apply Hlex1; [eapply items_first; [exact Hit|exact Hbb|exact Hnb]|]. apply Hlex2; [exact Hnb|discriminate|]. apply Hlex3; [exact Hr|].
      cbn [flat_map] in HL. unfold ptext at 1 in HL. rewrite !blen_app in HL. subst p2 p1. rewrite <- !Nat.add_assoc in *. exact HL.
    + intros L HL. reflexivity.
    + intros cx L line byte He Hat HL. cbn [flat_map] in Hat. pose proof (at_l _ _ _ _ Hat) as Hatb.
      unfold ptext at 1 in Hat. rewrite <- app_assoc in Hat.
      pose proof (at_l _ _ _ _ Hat) as Hat1. apply at_r in Hat. fold p1 in Hat. pose proof (at_l _ _ _ _ Hat) as Hat2. apply at_r in Hat. fold p2 in Hat.
      destruct (Hparse1 cx (ts2 ++ ts3 ++ L) line byte He Hat1) as (c & l1 & b1 & Hc & Hop & Htr & Hstep).
      destruct (Hparse2 cx (ts3 ++ L) l1 b1 He Hat2 (Hst3 _ HL)) as (ns & l2 & b2 & Hns & Hblk & _).
      destruct (Hparse3 cx L l2 b2 He Hat HL) as (cs & l3 & b3 & Hcs & Hfst & Hcont).
      set (cb := block_set_call c (block_new (c_open c) false (l1, l1 + 1))) in *.
      exists ((cb, ns) :: cs), l3, b3. split; [|split].
      * cbn [conds_are]. split; [|split; [|exact Hcs]].
        -- unfold cond_is. cbn [fst snd]. split; [exact Hc|]. split; [reflexivity|]. split; [reflexivity|]. split; [reflexivity|]. split; [exact Hns|]. split; [apply Htr|].
           cbn [cb block_set_call block_new b_call]. rewrite Hop. exact Hp.
        -- destruct cs as [|c2 cs]; [exact I|]. rewrite Hfst.
           assert (Hne : brs <> []) by (intros ->; exact Hcs).
           assert (Hla : last_ascii (ptext x)) by (eapply branch_end; [exact Hbr'|exact Hit|]; apply Hasc; destruct brs; [congruence|now left]).
           replace p2 with (p + blen (ptext x)) by (unfold ptext; rewrite blen_app; subst p2 p1; lia).
           now apply at_closable.
      * cbn [fst cb block_set_call block_new b_call]. now rewrite Hop.
      * intros name b stk Res Hf Hk fuel Hfuel. cbn [app] in *. rewrite <- !app_assoc in *. cbn [length] in Hfuel. destruct fuel as [|fuel]; [lia|].
        rewrite Hstep by lia. apply (Hblk name _ stk Res Hf).
        -- intros f2 Hf2. apply (Hcont name _ stk Res Hf); [|exact Hf2]. intros f3 Hf3. apply (Hk f3 Hf3).
        -- rewrite app_length in Hfuel. lia.
Qed.

(** ** Blocks *)
Lemma block_inv ly p c m body brs m' T : item_writes ly (IBlock p c m body brs m') T -> exists A ss bb Z, T = A ++ concat ss ++ bb ++ Z
  /\ tag_writes ly "{{" m [35%N] p c "}}" A /\ Forall2 (item_writes ly) body ss /\ branches_write ly brs bb /\ close_writes ly "{{" m' (call_name c) "}}" Z.
Proof. intros H. inversion H; subst. eexists _, _, _, _. repeat split; eassumption. Qed.
Lemma block_item ly pe p c m body brs m' T :
  callx_ok pe c -> block_name_ok c -> items_ok pe true true body ->
  Forall (fun b => (forall x, fst (fst b) = Some x -> callx_ok pe x) /\ items_ok pe true true (snd b)) brs ->
  (forall b, In b (removelast brs) -> ascii_end (doc_text (snd b))) ->
  item_writes ly (IBlock p c m body brs m') T ->
  (forall d ss, length (concat ss) < length T -> items_ok pe true true d -> Forall2 (item_writes ly) d ss -> items_good ly pe true d (concat ss)) ->
  item_good ly pe (IBlock p c m body brs m') T.
Proof.
  intros Hc Hb Hbody Hbrs Hasc HwT Hsub q. destruct c as [h t args hash]. cbn in Hb. destruct h as [w| | | | |]; try contradiction. destruct t; [|contradiction].
  destruct Hb as (a & z & Hw & Hz). set (x := Call (HdName w) [] args hash) in *.
  assert (Hnm : name_ok w) by (subst x; inversion Hc; assumption).
  assert (Hck : callx_ok pe (closing w)) by (constructor; [exact Hnm|constructor|constructor|constructor|constructor]).
  destruct (block_inv _ _ _ _ _ _ _ _ HwT) as (A & ss & bb & Z & -> & HA & Hss & Hbb & HZ).
  assert (En : call_name x = w) by (unfold call_name, x, path_text; cbn [head_text tail_text]; now rewrite app_nil_r). rewrite En in HZ.
  destruct (branches_pieces ly brs bb Hbb) as (ps & Hps & ->).
  assert (HT2 : exists r, Z = 123%N :: r) by (eapply close_first; eassumption).
  assert (HT1 : exists r, A = 123%N :: r) by (eapply (tag_first ly "{{" m [35%N] BStartBlockScope); [cbn; tauto|eassumption]).
  rewrite !app_length in Hsub.
  assert (Hlen1 : 1 <= length A) by (destruct HT1 as (r & ->); cbn; lia).
  assert (Gbody : items_good ly pe true body (concat ss)) by (apply Hsub; [lia|assumption|assumption]).
  assert (Gbrs : forall b y, In b brs -> In y ps -> branch_writes ly b y -> items_good ly pe true (snd b) (concat (snd y))).
  { intros b y Hib Hiy [_ Hbw]. rewrite Forall_forall in Hbrs. destruct (Hbrs b Hib) as [_ Hit]. apply Hsub; [|exact Hit|exact Hbw].
    apply in_split in Hiy. destruct Hiy as (p1 & p2 & ->). rewrite flat_map_app. cbn [flat_map]. unfold ptext at 2. rewrite !app_length. lia. }
  pose proof HZ as HZ0. destruct HA as (a1 & f1 & u1 & z1 & -> & Ha1 & Hf1 & Hu1 & (gz1 & -> & Hgz1)). apply partial_pre in Hf1.
  destruct HZ as (a2 & z2 & -> & Ha2 & (gz2 & -> & Hgz2)). apply around_gap in Hgz1, Hgz2. unfold close_tag in *.
  set (T1 := a1 ++ f1 ++ u1 ++ gz1 ++ tilde (tl_after m) ++ lit "}}") in *. set (T2 := a2 ++ w ++ gz2 ++ tilde (tl_after m') ++ lit "}}") in *.
  destruct (open_good ly pe "{{" [35%N] BStartBlockScope m a1 f1 p false x u1 gz1 (tl_after m) (lit "}}")) with (p := q) as (o1 & ts1 & Ho1 & (ra1 & Era1) & Hlex1 & Hlts1 & Hparse1);
    [cbn; tauto|exact Ha1|exact Hf1|exact Hu1|exact Hc|exact Hgz1|cbn; tauto|]. fold T1 in Hlex1, Hparse1.
  set (q1 := q + blen T1) in *. destruct (Gbody q1) as (ts2 & Hlex2 & _ & Hparse2). set (q2 := q1 + blen (concat ss)) in *.
  assert (Hq2 : 0 < q2) by (subst q2 q1; destruct HT1 as (r & ->); cbn [blen]; pose proof (clen_pos 123%N); lia).
  destruct (branches_good ly pe brs ps Hps Hbrs Hasc Gbrs q2 Hq2) as (ts3 & Hlex3 & Hst3 & Hparse3). set (q3 := q2 + blen (flat_map ptext ps)) in *.
  destruct (open_good ly pe "{{" [47%N] BEndBlockScope m' a2 [] false false (closing w) w gz2 (tl_after m') (lit "}}")) with (p := q3) as (o2 & ts4 & Ho2 & (ra2 & Era2) & Hlex4 & _ & Hparse4);
    [cbn; tauto|exact Ha2|left; auto|apply closing_writes|exact Hck|exact Hgz2|cbn; tauto|]. cbn [app] in Hlex4, Hparse4. fold T2 in Hlex4, Hparse4.
  set (q4 := q3 + blen T2) in *.
  set (TT := T1 ++ concat ss ++ flat_map ptext ps ++ T2) in *.
  assert (Ep : q + blen TT = q4) by (subst TT; rewrite !blen_app; subst q4 q3 q2 q1; lia).
  set (t4 := Tok (TBlock BEndBlockScope) q3 (q3 + blen o2)).
  exists BStartBlockScope, (q + blen o1), (ts1 ++ ts2 ++ ts3 ++ t4 :: ts4). split; [reflexivity|]. split.
  - intros rest L Hr HL. rewrite Ep in HL. unfold TT. rewrite <- !app_assoc. cbn [app].
    assert (Hn2 : nobrace (T2 ++ rest)) by (destruct HT2 as (r & ->); cbn; discriminate).
    assert (Hn3 : nobrace (flat_map ptext ps ++ T2 ++ rest)) by (eapply pieces_first; eassumption).
    apply Hlex1; [eapply items_first; [exact Hbody|exact Hss|exact Hn3]|]. apply Hlex2; [exact Hn3|discriminate|]. apply Hlex3; [exact Hn2|]. apply Hlex4; [exact Hr|exact HL].
  - intros cx L line byte He Hat. pose proof Hat as Hat0. pose proof (at_l _ _ _ _ Hat) as Hat1. apply at_r in Hat. fold q1 in Hat.
    pose proof (at_l _ _ _ _ Hat) as Hat2. apply at_r in Hat. fold q2 in Hat. pose proof (at_l _ _ _ _ Hat) as Hat3. apply at_r in Hat. fold q3 in Hat.
    set (L4 := t4 :: ts4 ++ L).
    destruct (Hparse1 cx (ts2 ++ ts3 ++ L4) line byte He Hat1) as (c1 & l1 & b1 & E1 & Hcall & H1 & H2 & H3 & H4 & H5).
    destruct (H5 w args hash eq_refl) as (_ & pq & Hpq & Hsimple & comp & comps & Hcomps & Hcs).
    assert (Hst4 : stops nontext L4) by reflexivity.
    destruct (Hparse2 cx (ts3 ++ L4) l1 b1 He Hat2 (Hst3 _ Hst4)) as (ns & l2 & b2 & Hns & Hblk2 & _).
    destruct (Hparse3 cx L4 l2 b2 He Hat3 Hst4) as (cs & l3 & b3 & Hconds & _ & Hblk3).
    destruct (Hparse4 cx L l3 b3 He Hat) as (c4 & l4 & b4 & E4 & _ & G1 & G2 & _ & _ & G5).
    destruct (G5 w [] [] eq_refl) as (_ & pq4 & Hpq4 & Hsimple4 & comp4 & comps4 & Hcomps4 & Hcs4).
    assert (ET1 : T1 = o1 ++ (ra1 ++ f1 ++ u1 ++ gz1) ++ tilde (tl_after m) ++ lit "}}") by (subst T1; rewrite Era1, <- !app_assoc; reflexivity).
    assert (ET2 : T2 = o2 ++ (ra2 ++ w ++ gz2) ++ tilde (tl_after m') ++ lit "}}") by (subst T2; rewrite Era2, <- !app_assoc; reflexivity).
    destruct (tag_ends (px_src cx) c1 o1 (ra1 ++ f1 ++ u1 ++ gz1) (tilde (tl_after m) ++ lit "}}") q) as (F1 & F2 & F3 & F4);
      [rewrite <- ET1; exact Hat1|exact H1|rewrite H2, <- ET1; rewrite Era1, <- !app_assoc; reflexivity|].
    destruct (tag_ends (px_src cx) c4 o2 (ra2 ++ w ++ gz2) (tilde (tl_after m') ++ lit "}}") q3) as (_ & _ & _ & K4);
      [rewrite <- ET2; exact Hat|exact G1|rewrite G2, <- ET2; rewrite Era2, <- !app_assoc; reflexivity|].
    rewrite <- ET2 in K4. fold q4 in K4.
    set (b0 := block_set_call c1 (block_new (q, q + blen o1) false (line, line + 1))).
    set (sp := (q3, q4)).
    set (bl := block_lines_end l4 (block_exit sp (add_all cs (push_all ns b0)))).
    exists (NBlock bl), l4, b4.
    destruct (push_all_plain ns b0 eq_refl) as (N1 & N2 & N3). change (b_nodes b0 ++ ns) with ns in N1.
    destruct (add_all_first sp cs (push_all ns b0) (conds_fresh _ _ _ _ _ Hconds) N2) as (M1 & M2 & M3). rewrite N1 in M1.
    pose proof (same_frame_trans _ _ _ M3 N3) as (W1 & W2 & W3 & W4 & W5).
    assert (Hbl : b_nodes bl = ns /\ b_conds bl = (match cs with [] => [] | (c, ns) :: l => final_conds sp (push_all ns c) l end)
              /\ b_call bl = c1 /\ b_open bl = (q, q + blen o1) /\ b_raw bl = false /\ b_close bl = Some sp).
    { change (b_call b0) with c1 in W1. change (b_open b0) with (q, q + blen o1) in W2. change (b_raw b0) with false in W3.
      split; [transitivity (b_nodes (block_exit sp (add_all cs (push_all ns b0)))); [|exact M1]|split; [transitivity (b_conds (block_exit sp (add_all cs (push_all ns b0)))); [|exact M2]|]];
        subst bl; unfold block_exit; destruct (add_all cs (push_all ns b0)); cbn in W1, W2, W3 |- *; [reflexivity|reflexivity|]; subst; repeat split. }
    clear M1 M2 M3 N1 N2 N3 W1 W2 W3 W4 W5. destruct Hbl as (B1 & B2 & B3 & B4 & B5 & B6).
    assert (Hclose : forall b, b_close b = Some sp -> b_raw b = false -> block_trim_close (px_src cx) b = Some (hint_of m')).
    { intros b Hb1 Hb2. eapply (close_tag_hint ly _ b "{{" "}}" m' w a z T2); [exact HZ0| |now rewrite Hb2|now rewrite Hb2|exact Hw|exact Hz|eapply name_last; eassumption].
      unfold block_close_str. rewrite Hb1. unfold sp. apply (at_sl _ _ T2); [exact Hat|reflexivity]. }
    split.
    + apply isN_block with (u := TT).
      * rewrite B3. exact Hcall.
      * exact B5.
      * rewrite B1. exact Hns.
      * rewrite B2. destruct cs as [|[cb cns] cs].
        -- destruct brs; [constructor|contradiction].
        -- eapply conds_final; eassumption.
      * cbn [node_trim]. unfold block_trim_before, block_trim_after, block_open_str. rewrite B3, B4, B5.
        rewrite (at_sl _ _ o1 (q + blen o1)); [|apply (at_l _ _ o1 ((ra1 ++ f1 ++ u1 ++ gz1) ++ tilde (tl_after m) ++ lit "}}")); rewrite <- ET1; exact Hat1|reflexivity].
        unfold call_trim_after. rewrite F2.
        rewrite (block_open_hint _ _ _ _ 2 Ho1) by (try reflexivity; cbn; tauto). rewrite closer_ends by (cbn; tauto). reflexivity.
      * now apply Hclose.
      * unfold block_str. rewrite B4, B6. cbn [fst snd]. apply slice_between; [exact Hat0|]. unfold sp. cbn [snd]. symmetry. exact Ep.
      * exact HwT.
    + intros stk Res Hf Haft fuel Hfuel.
      assert (Hn0 : block_name (px_src cx) b0 = Some (Some w)).
      { unfold block_name. cbn [b0 block_set_call block_new b_call]. rewrite Hpq, Hsimple, Hcomps, Hcs. reflexivity. }
      assert (Hclosing : forall f, length L4 + 1 <= f -> block_loop f cx (mkF (mkPst L4 l3 b3) ((w, add_all cs (push_all ns b0)) :: stk) None) = Res).
      { intros f Hf4. subst L4. cbn [length] in Hf4. destruct f as [|[|f]]; [lia|lia|]. rewrite block_loop_cons, advance_eq. subst t4.
        cbn [t_kind is_newline is_text f_p f_stack f_next].
        change (tspan (Tok (TBlock BEndBlockScope) q3 (q3 + blen o2))) with (q3, q3 + blen o2). unfold scope. rewrite E4. cbn [pbind lift].
        unfold block_name. cbn [block_set_call block_new b_call]. rewrite Hpq4, Hsimple4, Hcomps4, Hcs4, streq_refl.
        unfold call_is_closed. rewrite G2, K4. cbn [snd f_p p_line pbind f_stack f_next t_start]. fold sp. fold bl.
        destruct stk as [|[n b] stk]; [symmetry; exact Haft|].
        cbn [attach]. cbn [after] in Haft. apply Haft. rewrite app_length in Hf4. lia. }
      assert (Hloop : forall f, length (ts2 ++ ts3 ++ L4) + 1 <= f -> block_loop f cx (mkF (mkPst (ts2 ++ ts3 ++ L4) l1 b1) ((w, b0) :: stk) None) = Res).
      { intros f Hf4. apply (Hblk2 w b0 stk Res Hf); [|exact Hf4]. intros f2 Hf2. apply (Hblk3 w _ stk Res Hf); [|exact Hf2]. exact Hclosing. }
      replace ((ts1 ++ ts2 ++ ts3 ++ t4 :: ts4) ++ L) with (ts1 ++ ts2 ++ ts3 ++ L4) in * by (subst L4; now rewrite <- !app_assoc).
      assert (Hadv : forall f, length (ts1 ++ ts2 ++ ts3 ++ L4) + 1 <= f ->
        advance f cx (Tok (TBlock BStartBlockScope) q (q + blen o1)) (mkF (mkPst (ts1 ++ ts2 ++ ts3 ++ L4) line byte) stk None) = Res).
      { intros f Hff. rewrite app_length in Hff. destruct f as [|f]; [lia|]. rewrite advance_eq. cbn [t_kind is_newline is_text f_p f_stack f_next].
        change (tspan (Tok (TBlock BStartBlockScope) q (q + blen o1))) with (q, q + blen o1). unfold scope. rewrite E1. cbn [pbind lift f_p].
        match goal with |- context [block_name _ ?b] => change b with b0 end. rewrite Hn0.
        cbn [b0 block_set_call block_new b_call]. rewrite Hpq. fold b0. apply Hloop. lia. }
      split.
      * intros _. now apply Hadv.
      * intros Hs. rewrite block_loop_cons, Hadv by exact Hfuel. destruct Hf as (n & fs & -> & Hstk). cbn [pbind]. now rewrite Hstk.
Qed.

Lemma items_raw ly pe d ss : items_ok pe true true d -> Forall2 (item_writes ly) d ss -> items_good ly pe true d (concat ss) -> ~ occurs (lit "{{{{") (concat ss) -> raw_content (concat ss).
Proof.
  intros Hok Hw Hg Ho. split; [|split; [exact Ho|]].
  - intros rest. eapply items_first; eassumption.
  - intros p. destruct (Hg p) as (ts & Hlex & _). exists ts. intros rest L Hr. apply Hlex; [exact Hr|discriminate].
Qed.
Lemma in_concat_len (s : str) ss : In s ss -> length s <= length (concat ss).
Proof. induction ss as [|x ss IH]; [easy|]. intros [->|H]; cbn [concat]; rewrite app_length; [lia|]. specialize (IH H). lia. Qed.
Lemma item_all_good pe n : forall ly i s, length s < n -> item_ok pe i -> item_writes ly i s -> is_itext i = false -> item_good ly pe i s.
Proof.
  induction n as [|n IH]; [lia|]. intros ly i s Hn Hok Hw Ht.
  assert (Hsub : forall ly l ss a b, length (concat ss) < n -> items_ok pe a b l -> Forall2 (item_writes ly) l ss -> items_good ly pe b l (concat ss)).
  { intros ly' l ss a b Hl Hit Hws. eapply items_list; [exact Hit|exact Hws|]. intros j w Hj Hj' Htj Hokj Hwj. apply IH; [|exact Hokj|exact Hwj|exact Htj]. pose proof (in_concat_len w ss Hj'). lia. }
  inversion Hok as [|? ? ? ? Hc|? ? ? ? ? ? Hc Ha|? H1 H2 H3|? H1|? H1 H2 H3|? ? H1 H2|c m s0 m' d Hc Hb Hd Es Ho|p c m body brs m' H1 H2 H3 H4 H5]; subst; try discriminate.
  - apply leaf_item. now apply stmt_leaf.
  - apply leaf_item. now apply dyn_leaf.
  - inversion Hw; subst. apply leaf_item. now apply comment_leaf.
  - inversion Hw; subst. apply leaf_item. now apply raw_comment_leaf.
  - inversion Hw; subst. apply leaf_item. now apply escaped_leaf.
  - inversion Hw; subst. apply leaf_item. now apply link_leaf.
  - apply leaf_item. apply raw_leaf; [exact Hc|exact Hb| |exact Hw]. destruct Es as (ss & Hss & ->). apply (items_raw Loose pe d); [exact Hd|exact Hss| |exact Ho]. eapply Hsub; [|exact Hd|exact Hss].
    inversion Hw as [| | | | | | | | |? ? ? ? A Z HA HZ|]; subst. apply (tag_first _ _ _ _ BStartRawBlock) in HA; [|cbn; tauto]. destruct HA as (r & ->).
    rewrite !app_length in Hn. cbn [length] in Hn. lia.
  - apply block_item; try assumption. intros d ss Hl Hd Hss. eapply Hsub; [lia|exact Hd|exact Hss].
Qed.

(** ** Documents *)
Lemma compile_written ly pe o d ss : doc_ok pe d -> Forall2 (item_writes ly) d ss ->
  exists ns fs, compile pe o (concat ss) = POk (NDoc ns) fs /\ Forall2 (node_is ly pe (concat ss)) ns d.
Proof.
  intros Hok Hss. destruct (items_list ly pe false false d ss Hok Hss (fun i s _ _ Ht Hi Hw => item_all_good pe _ ly i s (Nat.lt_succ_diag_r _) Hi Hw Ht) 0) as (ts & Hlex & _ & Hparse).
  specialize (Hlex [] [] I (fun _ => eq_refl) (tkz_nil _ _)). rewrite !app_nil_r in Hlex. apply lex_unique in Hlex.
  unfold compile. rewrite Hlex. set (cx := mkPctx pe (concat ss) (po_file o)).
  destruct (Hparse cx [] (po_line o) (po_byte o) eq_refl) as (ns & l & b & Hns & _ & Htop); [exists [], []; split; [now rewrite app_nil_r|reflexivity]|exact I|].
  destruct (Htop (S (length ts)) [] eq_refl ltac:(lia)) as (fs & E). cbn [app] in E. rewrite E. cbn [pbind].
  exists ns, fs. split; [reflexivity|exact Hns].
Qed.
Theorem compile_printed ly pe o d s : doc_ok pe d -> doc_writes ly d s ->
  exists ns fs, compile pe o s = POk (NDoc ns) fs /\ Forall2 (node_is ly pe s) ns d.
Proof. intros Hok (ss & Hss & ->). now apply compile_written. Qed.

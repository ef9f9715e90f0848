(** * Props_Extract: a part of a template can be moved into a partial (C83). *)
From Coq Require Import Lia String.
From Verif Require Import Str Lexer Json Ast Parser Render Helpers Registry Tests StrFacts Spec_Lexer Spec_Values Spec_Helpers Spec_Blocks Spec_Calls Props_Values Props_Calls Props_Context CycleFacts Spec_Source SynBlock SynLayout Props_Source Spec_Sem SemFacts SemItems Props_Sem Spec_Fail FailItems Props_Fail Spec_Total TotalFacts Props_Total Spec_Exchange Props_Exchange Props_Laws Spec_Data Spec_Extract ExtractFacts.
Open Scope nat_scope. Open Scope list_scope.

(** ** The helpers of the crate are unaware of the scopes *)
Definition shift {A} (ss : list scope) (r : rres A) : rres A :=
  match r with ROk a s => ROk a (up_scopes ss s) | RErr e s => RErr e (up_scopes ss s) | RPanic p => RPanic p | RFuel => RFuel end.
Lemma write_shift en x esc ss st : write_str en x esc (up_scopes ss st) = shift ss (write_str en x esc st).
Proof.
  unfold write_str, bind, get. cbn [r_trim up_scopes]. set (v := if ts_end (r_trim st) then _ else _). change (r_trim (up_scopes ss st)) with (r_trim st). fold v. destruct v as [|c v]; [reflexivity|].
  unfold emit. change (r_out (up_scopes ss st)) with (r_out st). destruct (en_write en (r_out st) _); reflexivity.
Qed.
Lemma writes_shift K en v ss ws : forall st, run K en (writes ws v) (up_scopes ss st) = shift ss (run K en (writes ws v) st).
Proof.
  induction ws as [|[x esc] ws IH]; intros st; [reflexivity|]. cbn [writes run]. unfold mcatch. rewrite write_shift. destruct (write_str en x esc st) as [a s|e s|p|]; cbn [shift htry]; try reflexivity. apply IH.
Qed.
Lemma plain_shift K en p ss st : plain p -> run K en p (up_scopes ss st) = shift ss (run K en p st).
Proof. intros [(ws & v & ->)|([e|] & ->)]; [apply writes_shift|reflexivity|reflexivity]. Qed.
Lemma writes_no_panic K en v p ws : forall st, run K en (writes ws v) st <> RPanic p.
Proof.
  induction ws as [|[x esc] ws IH]; intros st; [discriminate|]. cbn [writes run]. unfold mcatch.
  assert (X : (exists a s, write_str en x esc st = ROk a s) \/ (exists e s, write_str en x esc st = RErr e s)).
  { unfold write_str, bind, get. destruct (if ts_end (r_trim st) then _ else _); [left; do 2 eexists; reflexivity|]. unfold emit. destruct (en_write en (r_out st) _); [left|right]; do 2 eexists; reflexivity. }
  destruct X as [(a & s & ->)|(e & s & ->)]; cbn [htry]; [apply IH|discriminate].
Qed.
Lemma uniform_moves w f n vs ps text prop blk q scs scs' p : plain q -> (forall s, acts w s f n vs ps text prop blk q) -> plain p ->
  acts w scs f n vs ps text prop blk p -> acts w scs' f n vs ps text prop blk p.
Proof.
  intros Pq Q Pp X ctx t E1 E2 E3 E4 E5 Ht K en st (S1 & S2 & S3 & S4). set (s0 := up_scopes scs st).
  assert (Es : st = up_scopes scs' s0) by (unfold s0; rewrite <- S4; destruct st; reflexivity).
  assert (Hs : sees w scs en s0) by (repeat split; assumption).
  rewrite (Q scs' ctx t E1 E2 E3 E4 E5 Ht K en st ltac:(repeat split; assumption)). rewrite Es. rewrite !plain_shift by assumption.
  rewrite <- (Q scs ctx t E1 E2 E3 E4 E5 Ht K en s0 Hs). now rewrite (X ctx t E1 E2 E3 E4 E5 Ht K en s0 Hs).
Qed.
(** a block whose content, or branch, panics *)
Definition bad_branch : node := NBlock (mkBlock [NDoc []] false (0, 0) None some_call [] (0, 0)).
Definition bad_block : tpl := mkTpl [] (NBlock (mkBlock [NDoc []] false (0, 0) None some_call [bad_branch] (0, 0))).
Definition bad_knot : knot := mkKnot (fun _ _ _ _ => mpanic PanSlice) (fun _ _ _ => mpanic PanSlice) (fun _ _ _ => mpanic PanSlice).
Lemma bad_not w scs f n vs ps text prop p : plain p -> (forall en st, run bad_knot en (f (bare n vs ps text prop) (Some bad_block)) st = RPanic PanSlice) -> ~ acts w scs f n vs ps text prop true p.
Proof.
  intros Pp B X. set (en := mkEnv (w_plat w) (w_reg w) [] (w_data w) string_writer). set (st := up_scopes scs (r_new [])).
  assert (T : Some bad_block <> None <-> true = true) by (split; [reflexivity|discriminate]).
  assert (Hs : sees w scs en st) by (repeat split).
  pose proof (X (bare n vs ps text prop) (Some bad_block) eq_refl eq_refl eq_refl eq_refl eq_refl T bad_knot en st Hs) as Y.
  rewrite (B en st) in Y. symmetry in Y. destruct Pp as [(ws & v & ->)|([e|] & ->)]; [exact (writes_no_panic _ _ _ _ _ _ Y)|discriminate Y|discriminate Y].
Qed.
Lemma block_cases w m f n vs ps text prop : builtin (w_plat w) m f -> In m block_helpers ->
  (exists q, plain q /\ forall s, acts w s f n vs ps text prop true q) \/ (forall scs p, plain p -> ~ acts w scs f n vs ps text prop true p).
Proof.
  intros Hb Hm. destruct (Nat.eq_dec (length vs) 1) as [L|L].
  2: { left. exists (HFail (EArityExact n 1)). split; [right; exists (Fails (EArityExact n 1)); reflexivity|]. intros s ctx t E1 E2 E3 E4 E5 Ht K en st _.
       assert (Ha : In (m, 1%N, 1%N) arities) by (cbn in Hm; repeat destruct Hm as [<-|Hm]; try contradiction; cbn; tauto).
       pose proof (C51_arity (w_plat w) m 1 1 f ctx t Ha Hb) as R. rewrite E1 in R. apply R. rewrite E2. lia. }
  destruct vs as [|v [|? ?]]; try discriminate L. clear L.
  assert (G : forall q, plain q -> (forall ctx t, hc_args ctx = [v] -> same_run (f ctx (Some t)) q) -> exists q, plain q /\ forall s, acts w s f n [v] ps text prop true q).
  { intros q Pq H. exists q. split; [exact Pq|]. intros s ctx t E1 E2 E3 E4 E5 Ht K en st _. destruct t as [t|]; [apply H, E2|]. destruct (proj2 Ht eq_refl eq_refl). }
  assert (Hf : f = if_helper /\ m = lit "if" \/ f = unless_helper /\ m = lit "unless" \/ f = with_helper /\ m = lit "with" \/ f = each_helper /\ m = lit "each").
  { cbn in Hm. repeat destruct Hm as [<-|Hm]; try contradiction; injection Hb as <-; tauto. }
  destruct Hf as [(-> & _)|[(-> & _)|[(-> & _)|(-> & _)]]].
  - right. intros scs p Pp. apply bad_not; [exact Pp|]. intros en st. unfold if_helper, with_arity, with_arg. cbn [ctx_arity ctx_get hc_args bare nth_error length N.of_nat]. cbn. destruct (is_truthy v); reflexivity.
  - right. intros scs p Pp. apply bad_not; [exact Pp|]. intros en st. unfold unless_helper, with_arity, with_arg. cbn. destruct (is_truthy v); reflexivity.
  - destruct v; [left; apply (G (HRet None)); [apply plain_ret|]; intros ctx t E K en st; unfold with_helper, with_arity, ctx_arity, ctx_get; rewrite E; reflexivity|..];
      right; intros scs p Pp; (apply bad_not; [exact Pp|]); intros en st; reflexivity.
  - assert (E0 : (match v with JArr (_ :: _) | JObj (_ :: _) => True | _ => False end) \/ exists q, plain q /\ forall s, acts w s each_helper n [v] ps text prop true q).
    { destruct v as [|b|x|x|[|x l]|[|x l]]; try (left; exact I); right; (apply (G (HRet None)); [apply plain_ret|]); intros ctx t E K en st; unfold each_helper, with_arity, with_arg, ctx_arity, ctx_get; rewrite E; destruct st; reflexivity. }
    destruct E0 as [E0|E0]; [right|left; exact E0]. intros scs p Pp. apply bad_not; [exact Pp|]. intros en st. destruct v as [|b|x|x|[|x l]|[|[y x] l]]; try contradiction; reflexivity.
Qed.
Theorem C83_standard_unaware : forall w m f, builtin (w_plat w) m f -> unaware w f.
Proof.
  intros w m f Hb blk scs scs' n vs ps text prop p Pp X.
  assert (V : forall b, stable b f -> (forall ctx, gives_or_halts (f ctx None)) -> acts w scs f n vs ps text prop b p -> acts w scs' f n vs ps text prop b p).
  { intros b H1 H2 Y. destruct (H2 (bare n vs ps text prop)) as (q & Hq & C). apply (uniform_moves w f n vs ps text prop b q scs scs' p); [|intros s; exact (acts_same _ _ _ _ _ _ _ _ _ _ _ (stable_acts w s b f n vs ps text prop H1) Hq)|exact Pp|exact Y].
    destruct C as [(v & ->)|C]; [apply plain_ret|right; exact C]. }
  destruct (in_block_helpers m) as [Hm|Hm].
  - destruct blk.
    + destruct (block_cases w m f n vs ps text prop Hb Hm) as [(q & Pq & Q)|C]; [|destruct (C scs p Pp X)]. exact (uniform_moves w f n vs ps text prop true q scs scs' p Pq Q Pp X).
    + destruct (block_helper_value _ m f Hb Hm) as (H1 & H2). exact (V false H1 H2 X).
  - destruct (value_helper _ m f Hb Hm) as (H1 & H2). exact (V blk (H1 blk) H2 X).
Qed.
Print Assumptions C83_standard_unaware.

(** ** Texts that meet *)
Lemma stripped_false x y : stripped false false x y -> y = x.
Proof. intros (a & b & -> & _ & _ & -> & ->). now rewrite app_nil_r. Qed.
Lemma text_out w scs act pb pb' x o : item_out w scs act pb pb' false false (IText x) o -> pb' = pb /\ o = x.
Proof. intros H. inversion H; subst. split; [reflexivity|now apply stripped_false]. Qed.
Lemma out_text w scs act pb x : item_out w scs act pb pb false false (IText x) x.
Proof. constructor. apply stripped_none. Qed.
Lemma glue_cases i a b : (exists x y b', a = [] /\ i = IText x /\ b = IText y :: b' /\ glue (i :: a) b = IText (x ++ y) :: b') \/ glue (i :: a) b = i :: glue a b.
Proof. destruct a as [|j a]; [|right; reflexivity]. destruct i; try (right; reflexivity). destruct b as [|[] b]; try (right; reflexivity). left. do 3 eexists. repeat split. Qed.
Lemma glue_before e a b : next_before e b = false -> next_before e (glue a b) = next_before false a.
Proof. intros E. destruct a as [|i a]; [exact E|]. destruct (glue_cases i a b) as [(x & y & b' & -> & -> & -> & ->)| ->]; reflexivity. Qed.
Definition end_ok (s : bool) (l : list item) : Prop := last_after s l = false /\ forall a x, l = a ++ [IText x] -> last_after s a = false.
Definition start_ok (e : bool) (l : list item) : Prop := next_before e l = false /\ forall x a, l = IText x :: a -> next_before e a = false.
Lemma end_ok_tail s i l : end_ok s (i :: l) -> end_ok (after i) l.
Proof. intros (H1 & H2). split; [exact H1|]. intros a x E. exact (H2 (i :: a) x (f_equal (cons i) E)). Qed.
Lemma glue_out w scs act b e : start_ok e b -> forall a s pb pb' out, end_ok s a -> items_out w scs act pb pb' s e (glue a b) out ->
  exists pb1 o1 o2, out = o1 ++ o2 /\ items_out w scs act pb pb1 s false a o1 /\ items_out w scs act pb1 pb' false e b o2.
Proof.
  intros Sb. induction a as [|i a IH]; intros s pb pb' out Ha H.
  - destruct Ha as (Ha & _). cbn in Ha. subst s. exists pb, [], out. split; [reflexivity|]. split; [constructor|exact H].
  - destruct (glue_cases i a b) as [(x & y & b' & -> & -> & -> & E)|E]; rewrite E in H; inversion H as [|? ? ? pb2 ? ? ? ? ? oi oj Hi Hj]; subst.
    + rewrite (proj2 Sb y b' eq_refl) in Hi. pose proof (proj2 Ha [] x eq_refl) as S0. cbn in S0. subst s. apply text_out in Hi. destruct Hi as (-> & ->).
      exists pb, x, (y ++ oj). split; [symmetry; apply app_assoc|]. split.
      * rewrite <- (app_nil_r x) at 2. eapply out_cons; [apply out_text|constructor].
      * eapply out_cons; [rewrite (proj2 Sb y b' eq_refl); apply out_text|exact Hj].
    + rewrite (glue_before _ _ _ (proj1 Sb)) in Hi. destruct (IH _ _ _ _ (end_ok_tail _ _ _ Ha) Hj) as (pb1 & o1 & o2 & -> & H1 & H2). exists pb1, (oi ++ o1), o2. split; [apply app_assoc|]. split; [|exact H2]. econstructor; eassumption.
Qed.
Lemma glue_err w nm scs act b e : start_ok e b -> forall a s pb out err, end_ok s a -> items_err w nm scs act pb s e (glue a b) out err ->
  items_err w nm scs act pb s false a out err
  \/ exists pb1 o1 o2, out = o1 ++ o2 /\ items_out w scs act pb pb1 s false a o1 /\ items_err w nm scs act pb1 false e b o2 err.
Proof.
  intros Sb. induction a as [|i a IH]; intros s pb out err Ha H.
  - destruct Ha as (Ha & _). cbn in Ha. subst s. right. exists pb, [], out. split; [reflexivity|]. split; [constructor|exact H].
  - destruct (glue_cases i a b) as [(x & y & b' & -> & -> & -> & E)|E]; rewrite E in H; inversion H as [? ? ? ? ? ? ? ? ? Hi|? ? ? pb2 ? ? ? ? oi oj ? Hi Hj]; subst.
    + inversion Hi.
    + rewrite (proj2 Sb y b' eq_refl) in Hi. pose proof (proj2 Ha [] x eq_refl) as S0. cbn in S0. subst s. apply text_out in Hi. destruct Hi as (-> & ->).
      right. exists pb, x, (y ++ oj). split; [symmetry; apply app_assoc|]. split.
      * rewrite <- (app_nil_r x) at 2. eapply out_cons; [apply out_text|constructor].
      * eapply err_later; [rewrite (proj2 Sb y b' eq_refl); apply out_text|exact Hj].
    + left. rewrite (glue_before _ _ _ (proj1 Sb)) in Hi. now apply err_here.
    + rewrite (glue_before _ _ _ (proj1 Sb)) in Hi. destruct (IH _ _ _ _ (end_ok_tail _ _ _ Ha) Hj) as [X|(pb1 & o1 & o2 & -> & H1 & H2)]; [left; eapply err_later; eassumption|].
      right. exists pb1, (oi ++ o1), o2. split; [apply app_assoc|]. split; [|exact H2]. econstructor; eassumption.
Qed.
Lemma glue_start e a b : start_ok false a -> start_ok e b -> start_ok e (glue a b).
Proof.
  intros (A1 & A2) (B1 & B2). destruct a as [|i a]; [split; assumption|]. split; [rewrite (glue_before _ _ _ B1); exact A1|]. intros x c E.
  destruct (glue_cases i a b) as [(x' & y & b' & -> & -> & -> & F)|F]; rewrite F in E; injection E as E1 E2; subst; [exact (B2 _ _ eq_refl)|]. rewrite (glue_before _ _ _ B1). exact (A2 _ _ eq_refl).
Qed.

(** ** A part becomes a partial *)
Lemma beside_partial n : beside n [] [SPartial n].
Proof.
  split.
  - intros s Hs. cbn [count_site]. destruct (site_eq (SPartial n) s) eqn:E; [|reflexivity]. destruct s as [m|m|m]; try discriminate E. cbn in E. apply streq_eq in E. subst m. now destruct Hs.
  - intros q Hq. cbn [In]. split; [|contradiction]. intros [E|[]]. injection E as E. now destruct Hq.
Qed.
Lemma empty_partial w n : partial_args w [] [] n [] [] nothing.
Proof. exists [], [], []. split; [constructor|]. split; [constructor|]. split; [|reflexivity]. split; [constructor|apply Permutation_refl]. Qed.
Lemma own_name n : partial_name (HdName n) [] n.
Proof. split; [symmetry; apply name_shown|]. left. split; [reflexivity|]. split; [symmetry; apply name_text|exact I]. Qed.
(** the document with the tag [{{> n}}] in place of the part *)
Definition with_partial (pre : list item) (tr : bool) (m : tildes) (n : str) (post : list item) : list item := pre ++ ICall tr m true (Call (HdName n) [] [] []) :: post.
Section Move.
Variables (w : world) (n : str) (d pre post : list item) (tr : bool) (m : tildes).
Hypothesis Hun : unaware_registry w.
Hypothesis Hbm : rg_block_missing (w_reg w) = None.
Hypothesis Hstd : forall q, In q block_helpers -> assoc q (rg_helpers (w_reg w)) <> None -> standard w q.
Hypothesis Hdocs : forall q x, q <> n -> assoc q (w_docs w) = Some x -> forallb (item_own false (w_reg w) n 1) x = true.
Hypothesis Hd : assoc n (w_docs w) = Some d.
Hypothesis Hown : forallb (item_own false (w_reg w) n 0) d = true.
Hypothesis Hm : tl_before m = false /\ tl_after m = false.
Hypothesis Hpre : forallb blockless pre = true.
Hypothesis Hblock : forall q x, assoc q (w_docs w) = Some x -> forallb blockless x = true.
Hypothesis Epre : open_end pre.
Hypothesis Sd : open_start d.
Hypothesis Ed : open_end d.
Hypothesis Spost : open_start post.
Let call := ICall tr m true (Call (HdName n) [] [] []).
Lemma move_out pb out : items_out w [] [] None pb false false (glue pre (glue d post)) out -> items_out w [] [] None pb false false (with_partial pre tr m n post) out.
Proof.
  intros X. destruct (glue_out w [] [] _ false (glue_start false d post Sd Spost) pre false None pb out Epre X) as (pb1 & o1 & o2 & -> & X1 & X2).
  pose proof (proj1 (proj2 (stays_unset w Hblock)) _ _ _ _ _ _ _ _ X1 eq_refl Hpre) as ->.
  destruct (glue_out w [] [] _ false Spost d false None pb o2 Ed X2) as (pb2 & o3 & o4 & -> & X3 & X4).
  destruct (proj1 (proj2 (out_in false w n Hun Hbm Hstd Hdocs)) _ _ _ _ _ _ _ _ X3 0 [nothing] [SPartial n] Hown (under_top false (w_data w) [] nothing eq_refl) (beside_partial n) eq_refl) as (X5 & ->).
  unfold with_partial. eapply items_out_app; [cbn [next_before before]; rewrite (proj1 Hm); exact X1|]. rewrite (proj1 Epre). eapply out_cons; [|cbn [after]; rewrite (proj2 Hm); exact X4].
  rewrite (proj1 Spost). eapply io_partial; [apply own_name|intros []|right; split; [right; reflexivity|exact Hd]|apply empty_partial|exact X5].
Qed.
Lemma move_err nm out err : items_err w nm [] [] None false false (glue pre (glue d post)) out err -> items_err w nm [] [] None false false (with_partial pre tr m n post) out err.
Proof.
  intros X. unfold with_partial. destruct (glue_err w nm [] [] _ false (glue_start false d post Sd Spost) pre false None out err Epre X) as [X1|(pb1 & o1 & o2 & -> & X1 & X2)].
  - apply items_err_first. cbn [next_before before]. rewrite (proj1 Hm). exact X1.
  - pose proof (proj1 (proj2 (stays_unset w Hblock)) _ _ _ _ _ _ _ _ X1 eq_refl Hpre) as ->.
    eapply items_err_second; [cbn [next_before before]; rewrite (proj1 Hm); exact X1|]. rewrite (proj1 Epre).
    destruct (glue_err w nm [] [] _ false Spost d false None o2 err Ed X2) as [X3|(pb2 & o3 & o4 & -> & X3 & X4)].
    + apply err_here. rewrite (proj1 Spost). eapply ie_partial; [apply own_name|intros []|right; split; [right; reflexivity|exact Hd]|apply empty_partial|].
      exact (proj1 (proj2 (err_in false w n Hun Hbm Hstd Hdocs nm)) _ _ _ _ _ _ _ _ X3 0 [nothing] [SPartial n] Hown (under_top false (w_data w) [] nothing eq_refl) (beside_partial n) eq_refl).
    + destruct (proj1 (proj2 (out_in false w n Hun Hbm Hstd Hdocs)) _ _ _ _ _ _ _ _ X3 0 [nothing] [SPartial n] Hown (under_top false (w_data w) [] nothing eq_refl) (beside_partial n) eq_refl) as (X5 & ->).
      eapply err_later; [|cbn [after]; rewrite (proj2 Hm); exact X4]. rewrite (proj1 Spost). eapply io_partial; [apply own_name|intros []|right; split; [right; reflexivity|exact Hd]|apply empty_partial|exact X5].
Qed.
End Move.

(** A part [d] of a template, registered as the partial [n], can be replaced by [{{> n}}]: the two templates give the same result, and write the same text
    up to an error; see Spec_Extract for what the part must be like. *)
Theorem C83_extract : forall pl reg data docs n d pre post tr m s s' name wr o o' te te', let w := mkWorld pl reg data docs in
  unaware_registry w -> rg_block_missing reg = None -> (forall q, In q block_helpers -> assoc q (rg_helpers reg) <> None -> standard w q) ->
  assoc n docs = Some d -> forallb (item_own false reg n 0) d = true ->
  (forall q x, q <> n -> assoc q docs = Some x -> forallb (item_own false reg n 1) x = true) ->
  forallb blockless pre = true -> (forall q x, assoc q docs = Some x -> forallb blockless x = true) ->
  open_end pre -> open_start d -> open_end d -> open_start post -> tl_before m = false -> tl_after m = false ->
  fits w -> closed w ->
  doc_ok (pl_penv pl) (glue pre (glue d post)) -> Forall (regular w) (glue pre (glue d post)) -> Forall (tame w) (glue pre (glue d post)) -> doc_writes Loose (glue pre (glue d post)) s ->
  doc_ok (pl_penv pl) (with_partial pre tr m n post) -> Forall (regular w) (with_partial pre tr m n post) -> doc_writes Loose (with_partial pre tr m n post) s' ->
  (forall h s, exists k, wr h s = WOk k) -> template_compile pl o s = AOk te -> template_compile pl o' s' = AOk te' ->
  exists B, forall fuel, B <= fuel ->
    let x := template_render fuel pl reg name (te_tpl te) data wr [] in
    let x' := template_render fuel pl reg name (te_tpl te') data wr [] in
    fst x' = fst x /\ fst x <> AFuel /\ ((forall p, fst x <> APanic p) -> concat (snd x') = concat (snd x)).
Proof.
  intros pl reg data docs n d pre post tr m s s' name wr o o' te te' w Hun Hbm Hst Ha Hown Hdocs Hpre Hbl E1 E2 E3 E4 M1 M2 Hf Hc D1 R1 T1 W1 D2 R2 W2 Hw Hte Hte'.
  destruct (C65_total w name _ Hf Hc D1 T1) as [(pb & out & X)|(out & err & X)].
  - pose proof (move_out w n d pre post tr m Hun Hbm Hst Hdocs Ha Hown (conj M1 M2) Hpre Hbl E1 E2 E3 E4 pb out X) as X'.
    destruct (C55_semantics pl reg data docs _ s pb out name wr o te Hf D1 W1 R1 X Hw Hte) as (B & HB).
    destruct (C55_semantics pl reg data docs _ s' pb out name wr o' te' Hf D2 W2 R2 X' Hw Hte') as (B' & HB').
    exists (B + B'). intros fuel Hfu x x'. destruct (HB fuel ltac:(lia)) as (p1 & F1 & G1). destruct (HB' fuel ltac:(lia)) as (p2 & F2 & G2). unfold x, x'. rewrite F1, F2. cbn [fst snd].
    split; [reflexivity|]. split; [discriminate|]. intros _. congruence.
  - pose proof (move_err w n d pre post tr m Hun Hbm Hst Hdocs Ha Hown (conj M1 M2) Hpre Hbl E1 E2 E3 E4 name out err X) as X'. destruct err as [err|].
    + destruct (C64_semantics pl reg data docs _ s out err name wr o te Hf D1 W1 R1 X Hw Hte) as (B & HB).
      destruct (C64_semantics pl reg data docs _ s' out err name wr o' te' Hf D2 W2 R2 X' Hw Hte') as (B' & HB').
      exists (B + B'). intros fuel Hfu x x'. destruct (HB fuel ltac:(lia)) as (p1 & F1 & G1). destruct (HB' fuel ltac:(lia)) as (p2 & F2 & G2). unfold x, x'. rewrite F1, F2. cbn [fst snd].
      split; [reflexivity|]. split; [discriminate|]. intros _. congruence.
    + destruct (C64_panics pl reg data docs _ s out name wr o te Hf D1 W1 R1 X Hw Hte) as (B & HB).
      destruct (C64_panics pl reg data docs _ s' out name wr o' te' Hf D2 W2 R2 X' Hw Hte') as (B' & HB').
      exists (B + B'). intros fuel Hfu x x'. pose proof (HB fuel ltac:(lia)) as F1. pose proof (HB' fuel ltac:(lia)) as F2. unfold x, x'. rewrite F1, F2.
      split; [reflexivity|]. split; [discriminate|]. intros Y. destruct (Y _ eq_refl).
Qed.
Print Assumptions C83_extract.

(** the same for [once], with the standard helpers *)
Theorem C83_once : forall pl reg data docs n d pre post tr m s s' name r, let w := mkWorld pl reg data docs in
  only_standard w ->
  assoc n docs = Some d -> forallb (item_own false reg n 0) d = true ->
  (forall q x, q <> n -> assoc q docs = Some x -> forallb (item_own false reg n 1) x = true) ->
  forallb blockless pre = true -> (forall q x, assoc q docs = Some x -> forallb blockless x = true) ->
  open_end pre -> open_start d -> open_end d -> open_start post -> tl_before m = false -> tl_after m = false ->
  fits w -> closed w ->
  doc_ok (pl_penv pl) (glue pre (glue d post)) -> Forall (regular w) (glue pre (glue d post)) -> Forall (tame w) (glue pre (glue d post)) -> doc_writes Loose (glue pre (glue d post)) s ->
  doc_ok (pl_penv pl) (with_partial pre tr m n post) -> Forall (regular w) (with_partial pre tr m n post) -> doc_writes Loose (with_partial pre tr m n post) s' ->
  (answers pl reg data name s' r <-> answers pl reg data name s r).
Proof.
  intros pl reg data docs n d pre post tr m s s' name r w (Ho & Ho1 & Ho2 & Ho3) Ha Hown Hdocs Hpre Hbl E1 E2 E3 E4 M1 M2 Hf Hc D1 R1 T1 W1 D2 R2 W2.
  destruct (compiles pl _ s (mkOpts name 0 0) D1 W1) as (te & Hte). destruct (compiles pl _ s' (mkOpts name 0 0) D2 W2) as (te' & Hte').
  assert (Hun : unaware_registry w).
  { intros f [(q & X)|[X|X]]; [exact (C83_standard_unaware w q f (Ho q f X))|congruence|congruence]. }
  assert (Hst : forall q, In q block_helpers -> assoc q (rg_helpers reg) <> None -> standard w q).
  { intros q _ X. destruct (assoc q (rg_helpers reg)) as [f|] eqn:E; [|congruence]. exists f. split; [exact (Ho q f E)|exact E]. }
  destruct (C83_extract pl reg data docs n d pre post tr m s s' name string_writer _ _ te te' Hun Ho2 Hst Ha Hown Hdocs Hpre Hbl E1 E2 E3 E4 M1 M2 Hf Hc D1 R1 T1 W1 D2 R2 W2 ltac:(intros; eexists; reflexivity) Hte Hte') as (B & HB).
  assert (E : forall fuel, B <= fuel -> registry_once fuel pl reg name s' data = registry_once fuel pl reg name s data).
  { intros fuel Hfu. destruct (HB fuel Hfu) as (H1 & H2 & H3). unfold registry_once. rewrite Hte, Hte'. unfold to_str.
    destruct (template_render fuel pl reg name (te_tpl te) data string_writer []) as [x p], (template_render fuel pl reg name (te_tpl te') data string_writer []) as [x' p']. cbn [fst snd] in *. subst x'.
    destruct x; try reflexivity. f_equal. apply H3. discriminate. }
  split; intros (M & HM); exists (B + M); intros fuel Hfu; [rewrite <- E by lia|rewrite E by lia]; apply HM; lia.
Qed.
Print Assumptions C83_once.

(** ** The hypotheses hold, for any data, for a part with a text at each end and a loop that uses [this] and [@index] *)
Definition letter : list item :=
  [IText (lit "Dear "); show "name"; IText (lit ": ");
   IBlock false (Call (HdName (lit "each")) [] [EPath (HdName (lit "l")) []] []) nt
     [ICall false nt false (Call HdThis [] [] []); IText (lit "/"); ICall false nt false (Call (HdLocal (lit "index")) [] [] []); show "name"] [] nt; IText (lit ".")].
Definition letter_reg : registry := set_templates [(lit "p", exch_te letter)] reg0.
Definition letter_pre : list item := [show "greeting"; IText (lit " <")].
Definition letter_post : list item := [IText (lit "> "); show "name"].
Lemma letter_regular : forall v, Forall (regular v) letter.
Proof.
  intros v. unfold letter, show, var. repeat (apply Forall_cons; [try (constructor; fail)|]); try apply Forall_nil.
  apply reg_block; [reflexivity|exact I|intros X; discriminate X|apply Forall_nil| | |apply Forall_nil].
  - intros _. right. split; [reflexivity|]. left. reflexivity.
  - repeat (apply Forall_cons; [constructor|]); apply Forall_nil.
Qed.
Definition letter_whole : list item := glue letter_pre (glue letter letter_post).
Definition letter_flat : list item :=
  [show "greeting"; IText (lit " <Dear "); show "name"; IText (lit ": ");
   IBlock false (Call (HdName (lit "each")) [] [EPath (HdName (lit "l")) []] []) nt
     [ICall false nt false (Call HdThis [] [] []); IText (lit "/"); ICall false nt false (Call (HdLocal (lit "index")) [] [] []); show "name"] [] nt; IText (lit ".> "); show "name"].
Lemma letter_whole_is : letter_whole = letter_flat.
Proof. reflexivity. Qed.
Definition letter_moved : list item := [show "greeting"; IText (lit " <"); ICall false nt true (Call (HdName (lit "p")) [] [] []); IText (lit "> "); show "name"].
Lemma letter_moved_is : with_partial letter_pre false nt (lit "p") letter_post = letter_moved.
Proof. reflexivity. Qed.
Lemma letter_moved_ok : doc_ok pe0 letter_moved.
Proof. unfold doc_ok, letter_moved, show, var. ok_items. Qed.
Lemma letter_flat_ok : doc_ok pe0 letter_flat.
Proof. unfold doc_ok, letter_flat, show, var. ok_items. Qed.
Lemma letter_ends : open_end letter_pre /\ open_start letter /\ open_end letter /\ open_start letter_post.
Proof.
  assert (E : forall (l : list item) y, last_after false l = false -> open_end (l ++ [IText y])).
  { intros l y H. split; [clear H; revert l; assert (G : forall l s, last_after s (l ++ [IText y]) = false) by (induction l as [|i l IH]; intros s; [reflexivity|apply IH]); intros l; apply G|].
    intros a x X. apply app_inj_tail in X. destruct X as [<- _]. exact H. }
  split; [exact (E [show "greeting"] (lit " <") eq_refl)|]. split; [split; [reflexivity|intros x a X; injection X as _ <-; reflexivity]|]. split; [exact (E (firstn 4 letter) (lit ".") eq_refl)|].
  split; [reflexivity|intros x a X; injection X as _ <-; reflexivity].
Qed.
Example C83_nonvacuous : forall data name r,
  doc_text letter = lit "Dear {{name}}: {{#each l}}{{this}}/{{@index}}{{name}}{{/each}}."
  /\ (answers pl0 letter_reg data name (lit "{{greeting}} <{{> p}}> {{name}}") r
      <-> answers pl0 letter_reg data name (lit "{{greeting}} <Dear {{name}}: {{#each l}}{{this}}/{{@index}}{{name}}{{/each}}.> {{name}}") r)
  /\ once letter_reg (lit "{{greeting}} <{{> p}}> {{name}}") (JObj [(lit "name", JStr (lit "A")); (lit "l", JArr [JNull; JStr (lit "b")])]) = AOk (lit " <Dear A: null/0Ab/1A.> A").
Proof.
  intros data name r. split; [reflexivity|]. split; [|vm_compute; reflexivity].
  assert (K1 : doc_ok pe0 letter) by (unfold doc_ok, letter, show, var; ok_items).
  assert (K2 : template_compile pl0 (mkOpts (lit "p") 0 0) (doc_text letter) = AOk (exch_te letter)) by (vm_compute; reflexivity).
  destruct (one_doc (exch_te letter) letter_reg data letter eq_refl eq_refl eq_refl eq_refl eq_refl K2 K1 eq_refl (calm_text (firstn 4 letter) _) (letter_regular _)) as (F & S & C).
  destruct letter_ends as (E1 & E2 & E3 & E4).
  assert (D1 : doc_ok pe0 letter_whole) by (rewrite letter_whole_is; exact letter_flat_ok).
  assert (D2 : doc_ok pe0 (with_partial letter_pre false nt (lit "p") letter_post)) by (rewrite letter_moved_is; exact letter_moved_ok).
  apply (C83_once pl0 letter_reg data [(lit "p", letter)] (lit "p") letter letter_pre letter_post false nt); try assumption.
  - reflexivity.
  - vm_compute. reflexivity.
  - intros q x Hq X. cbn [assoc] in X. destruct (streq q (lit "p")) eqn:E; [apply streq_eq in E; contradiction|discriminate X].
  - reflexivity.
  - intros q x X. cbn [assoc] in X. destruct (streq q (lit "p")); [|discriminate X]. injection X as <-. reflexivity.
  - reflexivity.
  - reflexivity.
  - fold letter_whole. rewrite letter_whole_is. apply Forall_forall. intros i Hi. pose proof (letter_regular (mkWorld pl0 letter_reg data [(lit "p", letter)])) as L. rewrite Forall_forall in L.
    unfold letter_flat in Hi. cbn [In] in Hi. repeat (destruct Hi as [<-|Hi]; [first [constructor; fail|apply L; cbn; tauto]|]). contradiction Hi.
  - fold letter_whole. rewrite letter_whole_is. apply Forall_forall. intros i Hi. apply C65_standard_tame; [exact S|]. unfold letter_flat in Hi. cbn [In] in Hi. repeat (destruct Hi as [<-|Hi]; [reflexivity|]). contradiction Hi.
  - exact (doc_canon _ _ _ D1).
  - unfold with_partial, letter_pre, letter_post, show, var. cbn [app]. repeat (apply Forall_cons; [constructor; try reflexivity|]); apply Forall_nil.
  - exact (doc_canon _ _ _ D2).
Qed.
(** why the conditions are there: [this], [@index] and [../] outside of a loop of the part *)
Definition part_reg (s : string) : registry := match template_compile pl0 (mkOpts (lit "p") 0 0) (lit s) with AOk te => set_templates [(lit "p", te)] reg0 | _ => reg0 end.
Example C83_conditions : let l := JObj [(lit "l", JArr [JStr (lit "a")])] in
  once (part_reg "{{this}}") (lit "{{this}}") (JStr (lit "x")) = AOk (lit "x") /\ once (part_reg "{{this}}") (lit "{{> p}}") (JStr (lit "x")) = AOk (lit "Object")
  /\ once (part_reg "{{@index}}") (lit "{{#each l}}{{@index}}{{/each}}") l = AOk (lit "0") /\ once (part_reg "{{@index}}") (lit "{{#each l}}{{> p}}{{/each}}") l = AOk []
  /\ once (part_reg "{{#with l}}{{json ../l}}{{/with}}") (lit "{{#with l}}{{json ../l}}{{/with}}") l = AOk (lit "[&quot;a&quot;]")
  /\ once (part_reg "{{#with l}}{{json ../l}}{{/with}}") (lit "{{> p}}") l = AOk (lit "null").
Proof. repeat split; vm_compute; reflexivity. Qed.

(** * Props_Source: C54 (printing and parsing), C13 (string literals), C14 (paths), C16 (numbers). *)
From Coq Require Import Lia String.
From Verif Require Import Str Regex Lexer Json Ast ErrInfo Parser Render Helpers Registry Tests StrFacts RegexFacts Spec_Lexer LexerFacts Spec_Values ValueFacts Spec_Source SynLex SynBlock SynLayout.
Open Scope nat_scope. Open Scope list_scope.

(** ** C54: a template that writes a syntax tree, with any white space inside its tags, compiles, and the AST carries exactly
    the content of the tree. *)
Theorem C54_layout : forall pe o d s, doc_ok pe d -> doc_writes Loose d s ->
  exists ns fs, compile pe o s = POk (NDoc ns) fs /\ Forall2 (node_is Loose pe s) ns d.
Proof. exact (compile_printed Loose). Qed.
(** the printed text is one way of writing; there the nodes have the printed texts of their trees *)
Theorem C54_parse_print : forall pe o d, doc_ok pe d ->
  exists ns fs, compile pe o (doc_text d) = POk (NDoc ns) fs /\ Forall2 (node_is Tight pe (doc_text d)) ns d.
Proof. intros pe o d H. apply compile_printed; [exact H|]. eapply doc_canon, H. Qed.
Theorem C54_printed_is_written : forall pe d, doc_ok pe d -> doc_writes Loose d (doc_text d) /\ forall s, doc_writes Tight d s <-> s = doc_text d.
Proof. intros pe d H. split; [eapply doc_canon, H|]. intros s. split; [apply doc_tight|]. intros ->. eapply doc_canon, H. Qed.

(** a small decision procedure for the side conditions on concrete documents *)
Fixpoint occursb (u s : str) : bool :=
  starts_with u s || match s with [] => false | _ :: s' => occursb u s' end.
Lemma occurs_b u s : occursb u s = false -> ~ occurs u s.
Proof.
  intros H (a & b & ->). revert H. induction a as [|c a IH].
  - cbn [app]. destruct (u ++ b) eqn:E.
    + apply app_eq_nil in E. destruct E as [-> ->]. discriminate.
    + rewrite <- E. intro H. assert (X : starts_with u (u ++ b) = true) by (clear; induction u as [|x u IH]; [destruct b; reflexivity|]; cbn; now rewrite N.eqb_refl).
      rewrite E in *. cbn [occursb] in H. rewrite X in H. discriminate.
  - cbn [app occursb]. intro H. apply orb_false_iff in H. now apply IH.
Qed.

Lemma ends_b l s : (match rev s with [] => true | c :: _ => negb (existsb (N.eqb c) l) end) = true -> ~ ends_in l s.
Proof.
  intros H (a & c & -> & Hc). rewrite rev_app_distr in H. cbn in H. apply negb_true_iff in H.
  assert (X : existsb (N.eqb c) l = true) by (apply existsb_exists; exists c; split; [exact Hc|apply N.eqb_refl]).
  unfold chr in *. rewrite X in H. discriminate.
Qed.
Lemma number_b r s : nullable (derivs s r) = true -> lang r s.
Proof. intro H. apply nullable_spec in H. apply derivs_spec in H. now rewrite app_nil_r in H. Qed.
Lemma last_b w : (match rev w with z :: _ => clen z =? 1 | [] => false end) = true -> exists a z, w = a ++ [z] /\ clen z = 1.
Proof.
  destruct (rev w) as [|z l] eqn:E; [discriminate|]. intro H. exists (rev l), z.
  split; [rewrite <- (rev_involutive w), E; reflexivity|now apply Nat.eqb_eq].
Qed.
(** a computable check of [link_parts_ok], for the examples *)
Definition special_b (c : chr) : bool := existsb (N.eqb c) [92; 124; 93]%N.
Fixpoint ltake (w : str) : str * str :=
  match w with [] => ([], []) | c :: w1 => if special_b c then ([], w) else let (s, r) := ltake w1 in (c :: s, r) end.
Lemma special_in c : special_b c = true <-> In c [92; 124; 93]%N.
Proof. unfold special_b. rewrite existsb_exists. split; [intros (x & Hx & E); apply N.eqb_eq in E; now subst|intros H; exists c; split; [exact H|apply N.eqb_refl]]. Qed.
Lemma ltake_spec w s r : ltake w = (s, r) -> w = s ++ r /\ (forall c, In c s -> ~ In c [92; 124; 93]%N) /\ (forall c r', r = c :: r' -> In c [92; 124; 93]%N).
Proof.
  revert s r. induction w as [|c w IH]; intros s r H; cbn [ltake] in H.
  - injection H as <- <-. split; [reflexivity|]. split; [intros ? []|discriminate].
  - destruct (special_b c) eqn:E.
    + injection H as <- <-. split; [reflexivity|]. split; [intros ? []|]. intros c' r' [= <- <-]. now apply special_in.
    + destruct (ltake w) as [s' r'] eqn:E'. injection H as <- <-. destruct (IH _ _ eq_refl) as (-> & H1 & H2). split; [reflexivity|]. split; [|exact H2].
      intros x [<-|Hx]; [|now apply H1]. intros Hc. apply special_in in Hc. congruence.
Qed.
Fixpoint link_part_b (fuel : nat) (pipes : bool) (w : str) : bool :=
  match fuel with
  | O => match w with [] => true | _ => false end
  | S n =>
      match w with
      | [] => true
      | c :: w1 =>
          if (c =? 92)%N then match w1 with e :: w' => existsb (N.eqb e) [110; 124; 93]%N && link_part_b n pipes w' | [] => false end
          else if (c =? 124)%N then pipes && link_part_b n pipes w1
          else let (s, r) := ltake w in negb (streq s [10%N]) && match s with [] => false | _ => true end && link_part_b n pipes r
      end
  end.
Lemma link_part_b_ok n pipes w : link_part_b n pipes w = true -> link_part pipes w.
Proof.
  revert w. induction n as [|n IH]; intros w H; cbn [link_part_b] in H.
  - destruct w; [constructor|discriminate].
  - destruct w as [|c w]; [constructor|]. destruct (N.eqb_spec c 92) as [->|N1].
    + destruct w as [|e w]; [discriminate|]. apply andb_true_iff in H. destruct H as [H1 H2]. apply existsb_exists in H1. destruct H1 as (x & Hx & E). apply N.eqb_eq in E. subst x.
      apply lp_escape; [exact Hx|now apply IH].
    + destruct (N.eqb_spec c 124) as [->|N2].
      * apply andb_true_iff in H. destruct H as [H1 H2]. apply lp_pipe; [exact H1|now apply IH].
      * destruct (ltake (c :: w)) as [s r] eqn:E. destruct (ltake_spec _ _ _ E) as (Ew & Hs & Hr). rewrite Ew.
        apply andb_true_iff in H. destruct H as [H H3]. apply andb_true_iff in H. destruct H as [H1 H2].
        apply lp_text; [destruct s; [discriminate|discriminate]| |exact Hs|exact Hr|now apply IH].
        intros ->. rewrite (proj2 (streq_eq _ _) eq_refl) in H1. discriminate.
Qed.
Definition link_parts_check (parts : list str) : bool :=
  let ok pipes w := link_part_b (length w) pipes w in
  let some (w : str) := match w with [] => false | _ => true end in
  match parts with
  | [h] => ok false h
  | [h; l] => ok false h && (ok false l && some l)
  | [h; l; t] => ok false h && (ok false l && (ok true t && some t))
  | _ => false
  end.
Lemma link_parts_b parts : link_parts_check parts = true -> link_parts_ok parts.
Proof.
  unfold link_parts_check, link_parts_ok. destruct parts as [|h [|l [|t [|]]]]; try discriminate; intros H; repeat (apply andb_true_iff in H; let H' := fresh "K" in destruct H as [H' H]);
    repeat match goal with |- _ /\ _ => split end; try (eapply link_part_b_ok; eassumption); intros ->; discriminate.
Qed.
Lemma not_in_b c l : existsb (N.eqb c) l = false -> ~ In c l.
Proof. intros H Hc. assert (X : existsb (N.eqb c) l = true) by (apply existsb_exists; exists c; split; [exact Hc|apply N.eqb_refl]). unfold chr in *. congruence. Qed.
Ltac ok_side :=
  lazymatch goal with
  | |- ~ occurs _ _ => apply occurs_b; reflexivity
  | |- ~ ends_in _ _ => apply ends_b; reflexivity
  | |- ~ begins_with _ _ => intros (? & ?); discriminate
  | |- plain_before _ => split; ok_side
  | |- plain _ => split; [discriminate|split; ok_side]
  | |- plain_after _ => intros (? & ?); discriminate
  | |- name_ok _ => split; [apply not_in_b; reflexivity|split; [reflexivity|ok_side]]
  | |- head_ok _ => cbn [head_ok]; ok_side
  | |- arg_head_ok (HdAbs _) => right; eexists; split; [reflexivity|ok_side]
  | |- arg_head_ok _ => left; cbn [head_ok]; ok_side
  | |- True => exact I
  | |- forallb _ _ = true => reflexivity
  | |- _ = _ -> _ => first [intro; exact I|intro; discriminate|let H := fresh in intro H; discriminate H]
  | |- _ <= _ <= _ => cbn; lia
  | |- _ /\ _ => split; ok_side
  | |- seg_ok _ => cbn [seg_ok]; ok_side
  | |- forall c, In c _ -> _ => let H := fresh in intros c H; cbn in H; repeat (destruct H as [<-|H]; [ok_side|]); contradiction
  | |- ~ In _ _ => let H := fresh in intro H; cbn in H; repeat (destruct H as [H|H]; [discriminate|]); exact H
  | |- tail_ok _ => unfold tail_ok; ok_side
  | |- _ <> _ => discriminate
  | |- Forall _ [] => apply Forall_nil
  | |- Forall _ (_ :: _) => apply Forall_cons; [cbn [fst snd]; ok_side|ok_side]
  | |- key_ok _ => split; [discriminate|reflexivity]
  | |- NoDup (map fst _) => cbn [map fst]; ok_side
  | |- NoDup [] => apply NoDup_nil
  | |- NoDup (_ :: _) => apply NoDup_cons; ok_side
  | |- expr_ok _ (ENum _) => eapply ok_num; [apply number_lang, number_b; reflexivity|reflexivity]
  | |- expr_ok _ (EPath _ _) => apply ok_path; ok_side
  | |- expr_ok _ (ESub _) => apply ok_sub; ok_side
  | |- expr_ok _ (EStr _ _) => apply ok_str; ok_side
  | |- expr_ok _ (EArr _) => apply ok_arr; ok_side
  | |- args_ok _ _ _ => unfold args_ok; ok_side
  | |- expr_ok _ (EBool _) => apply ok_bool
  | |- expr_ok _ ENull => apply ok_null
  | |- callx_ok _ _ => apply ok_call; ok_side
  | |- sitems_ok _ _ => cbn [sitems_ok]; ok_side
  | |- _ => idtac
  end.

Ltac ok_items :=
  lazymatch goal with
  | |- items_ok _ _ _ [] => apply okL_nil
  | |- items_ok _ _ _ (IText _ :: _) => apply okL_text; [ok_side|intro; first [discriminate|ok_side]|intro; ok_side|first [exact I|reflexivity]|ok_items]
  | |- items_ok _ _ _ (_ :: _) => apply okL_tag; [reflexivity|ok_item|ok_items]
  end
with ok_item :=
  lazymatch goal with
  | |- item_ok _ (ICall _ _ _ _) => apply okI_call; ok_side
  | |- item_ok _ (IDyn _ _ _ _ _ _) => apply okI_dyn; ok_side
  | |- item_ok _ (IComment _) => apply okI_comment; [ok_side|ok_side|intros ? ?; discriminate]
  | |- item_ok _ (IRawComment _) => apply okI_raw_comment; ok_side
  | |- item_ok _ (IEscaped _) => apply okI_escaped; ok_side
  | |- item_ok _ (ILink _ _) => apply okI_link; apply link_parts_b; reflexivity
  | |- item_ok ?pe (IRaw _ _ (doc_text ?d) _) => apply (okI_raw _ _ _ _ _ d); [ok_side|apply last_b; reflexivity|ok_items|apply (doc_canon pe); unfold doc_ok; ok_items|ok_side]
  | |- item_ok _ (IBlock _ _ _ _ _ _) =>
      apply okI_block; [ok_side|apply last_b; reflexivity|ok_items
        |repeat (apply Forall_cons; [split; [let H := fresh in intros ? H; cbn in H; try discriminate H; injection H as <-; ok_side|cbn [snd]; ok_items]|]); apply Forall_nil
        |let H := fresh in intros ? H; cbn in H; repeat (destruct H as [<-|H]; [first [left; reflexivity|right; apply last_b; reflexivity]|]); contradiction]
  end.
Definition nt : tildes := mkTildes false false.
(** text, statements with every kind of argument, comments, links, a raw block and a nested block *)
Definition sample : list item :=
  [IText (lit "Hi, ");
   ICall false (mkTildes true false) false
     (Call (HdName (lit "fmt")) [] [EStr false [SChar 97%N; SQuote; SNewline; SChar 92%N; SChar 98%N]; ENum (lit "-12"); ENull;
        EPath (HdUp 2 (lit "a")) [(false, SName (lit "b")); (true, SBracket (lit "c d")); (false, SQuoted false [SChar 101%N; SQuote; SNewline; SChar 32%N])]; EPath (HdAbs (lit "q")) [];
        ESub (Call (HdName (lit "eq")) [] [EBool true; EPath (HdLocal (lit "index")) []] [])] [(lit "k", EPath HdThis []); (lit "j", EPath (HdDot (SName (lit "z"))) [])]);
   IComment (lit " c "); IRawComment (lit "{{x}}"); IText (lit " t "); IEscaped (lit "raw"); ILink false [lit "u"; lit "v"]; ILink true [lit "w"];
   ICall true nt false (Call (HdName [233%N]) [] [] []); ICall false nt true (Call (HdName (lit "p")) [] [] []);
   IDyn false (mkTildes true true) true (Call (HdName (lit "lookup")) [] [EPath HdThis []; EArr (lit "part \{ 1")] []) [ENum (lit "1")] [(lit "k", EBool false)];
   IRaw (Call (HdName (lit "raw")) [] [] []) nt (doc_text [IText (lit "x } y "); ICall false nt false (Call (HdName (lit "z")) [] [] [])]) nt;
   IBlock false (Call (HdName (lit "if")) [] [EPath (HdName (lit "a")) []] []) (mkTildes false true)
     [IText (lit "yes"); IBlock false (Call (HdName (lit "each")) [] [EPath (HdName (lit "l")) []] []) nt [ICall false nt false (Call HdThis [] [] [])] [] nt]
     [(Some (Call (HdName (lit "if")) [] [EPath (HdName (lit "b")) []] []), nt, [IText (lit "perhaps")]); (None, nt, [])] (mkTildes true false);
   IText (lit "end")].
Lemma sample_ok : doc_ok pe0 sample.
Proof. unfold doc_ok, sample. ok_items. Qed.

Lemma Forall2_len {A B} (R : A -> B -> Prop) l l' : Forall2 R l l' -> length l = length l'.
Proof. induction 1; cbn; congruence. Qed.
Example C54_nonvacuous : exists ns fs, compile pe0 (mkOpts (lit "t") 0 0) (doc_text sample) = POk (NDoc ns) fs
  /\ length ns = 14 /\ Forall2 (node_is Tight pe0 (doc_text sample)) ns sample.
Proof.
  destruct (C54_parse_print pe0 (mkOpts (lit "t") 0 0) sample sample_ok) as (ns & fs & E & H). exists ns, fs.
  split; [exact E|]. split; [exact (Forall2_len _ _ _ H)|exact H].
Qed.
(** the same tree with blanks and newlines in its tags *)
Definition nl1 : str := [10%N].
Definition loose : list item :=
  [ICall false nt false (Call (HdName (lit "fmt")) [] [EPath (HdName (lit "a")) []] [(lit "k", ENum (lit "1"))]);
   IBlock false (Call (HdName (lit "if")) [] [ESub (Call (HdName (lit "eq")) [] [EBool true] [])] []) nt [IText (lit "y")] [(None, nt, [IText (lit "z")])] nt].
Definition loose_text : str :=
  lit "{{ fmt" ++ nl1 ++ lit "  a  k=1 }}{{ # if ( eq true ) }}y{{ else }}z{{/ if" ++ nl1 ++ lit "}}".
Ltac gap_side := first [reflexivity|let H := fresh in intros ? H; cbn in H; repeat (destruct H as [<-|H]; [cbn; tauto|]); contradiction
  |split; [gap_side|discriminate]].
Lemma loose_ok : doc_ok pe0 loose.
Proof. unfold doc_ok, loose. ok_items. Qed.
Lemma w_call' ly h t args hash sa sh s : args_write ly args sa -> hash_writes ly hash sh -> s = path_text h t ++ sa ++ sh -> call_writes ly (Call h t args hash) s.
Proof. intros H1 H2 ->. now constructor. Qed.
Lemma w_args' ly e l g u r s : between ly g -> expr_writes ly e u -> args_write ly l r -> s = g ++ u ++ r -> args_write ly (e :: l) s.
Proof. intros H1 H2 H3 ->. now constructor. Qed.
Lemma w_hash' ly k e l g u r s : between ly g -> expr_writes ly e u -> hash_writes ly l r -> s = g ++ (k ++ [61%N]) ++ u ++ r -> hash_writes ly ((k, e) :: l) s.
Proof. intros H1 H2 H3 ->. now constructor. Qed.
Lemma w_sub' ly c g u g' s : around ly g -> call_writes ly c u -> around ly g' -> s = [40%N] ++ g ++ u ++ g' ++ [41%N] -> expr_writes ly (ESub c) s.
Proof. intros H1 H2 H3 ->. now constructor. Qed.
Lemma w_path' ly h t s : s = path_text h t -> expr_writes ly (EPath h t) s.
Proof. intros ->. constructor. Qed.
Lemma loose_writes : doc_writes Loose loose loose_text.
Proof.
  exists [lit "{{ fmt" ++ nl1 ++ lit "  a  k=1 }}"; lit "{{ # if ( eq true ) }}y{{ else }}z{{/ if" ++ nl1 ++ lit "}}"]. split; [|reflexivity].
  constructor; [|constructor; [|constructor]].
  - constructor.
    + exists (lit "{{ "), [], (lit "fmt" ++ nl1 ++ lit "  a  k=1"), (lit " }}"). split; [reflexivity|]. split; [exists (lit " "), []; split; [reflexivity|split; gap_side]|].
      split; [reflexivity|]. split; [|exists (lit " "); split; [reflexivity|gap_side]].
      apply (w_call' Loose _ _ _ _ (nl1 ++ lit "  a") (lit "  k=1")); [| |reflexivity].
      * apply (w_args' Loose _ _ (nl1 ++ lit "  ") (lit "a") []); [gap_side|apply w_path'; reflexivity|constructor|reflexivity].
      * apply (w_hash' Loose (lit "k") _ _ (lit "  ") (lit "1") []); [gap_side|constructor|constructor|reflexivity].
    + intros H. discriminate H.
  - apply (wI_block Loose _ _ _ _ _ _ (lit "{{ # if ( eq true ) }}") [lit "y"] (lit "{{ else }}z") (lit "{{/ if" ++ nl1 ++ lit "}}")).
    + exists (lit "{{ # "), [], (lit "if ( eq true )"), (lit " }}"). split; [reflexivity|]. split; [exists (lit " "), (lit " "); split; [reflexivity|split; gap_side]|].
      split; [reflexivity|]. split; [|exists (lit " "); split; [reflexivity|gap_side]].
      apply (w_call' Loose _ _ _ _ (lit " ( eq true )") []); [|constructor|reflexivity].
      apply (w_args' Loose _ _ (lit " ") (lit "( eq true )") []); [gap_side| |constructor|reflexivity].
      apply (w_sub' Loose _ (lit " ") (lit "eq true") (lit " ")); [gap_side| |gap_side|reflexivity].
      apply (w_call' Loose _ _ _ _ (lit " true") []); [|constructor|reflexivity]. apply (w_args' Loose _ _ (lit " ") (lit "true") []); [gap_side|apply (w_bool Loose true)|constructor|reflexivity].
    + constructor; [constructor|constructor].
    + apply (wB_cons Loose None _ _ [] (lit "{{ else }}") [lit "z"] []); [|constructor; [constructor|constructor]|constructor].
      exists (lit "{{ "), [], (lit " }}"). split; [reflexivity|]. split; [exists (lit " "), []; split; [reflexivity|split; gap_side]|]. split; [|reflexivity].
      exists (lit " "). split; [reflexivity|gap_side].
    + exists (lit "{{/ "), (nl1 ++ lit "}}"). split; [reflexivity|]. split; [exists [], (lit " "); split; [reflexivity|split; gap_side]|].
      exists nl1. split; [reflexivity|gap_side].
Qed.
Example C54_layout_nonvacuous : doc_ok pe0 loose /\ doc_writes Loose loose loose_text /\ loose_text <> doc_text loose
  /\ exists ns fs, compile pe0 (mkOpts (lit "t") 0 0) loose_text = POk (NDoc ns) fs /\ Forall2 (node_is Loose pe0 loose_text) ns loose.
Proof.
  split; [exact loose_ok|]. split; [exact loose_writes|]. split; [vm_compute; discriminate|].
  exact (C54_layout pe0 (mkOpts (lit "t") 0 0) loose loose_text loose_ok loose_writes).
Qed.
(** ** C13, C14, C16: what an argument denotes, wherever its statement stands in the document *)
Lemma Forall2_at {A B} (R : A -> B -> Prop) l1 a x b : Forall2 R l1 (a ++ x :: b) -> exists y, nth_error l1 (length a) = Some y /\ R y x.
Proof.
  revert l1. induction a as [|z a IH]; intros l1 H; inversion H as [|y x' l l' Hy Hl]; subst; [now exists y|].
  destruct (IH _ Hl) as (w & E & Hw). exists w. split; [exact E|exact Hw].
Qed.
(** [x] stands as argument number [length xs] of a statement of a document, however it is written; the compiled argument there satisfies [P] *)
Definition argument_in (pe : penv) (doc : list item) (i j : nat) (P : str -> param -> Prop) : Prop :=
  forall o s, doc_writes Loose doc s -> exists ns fs c v, compile pe o s = POk (NDoc ns) fs
    /\ nth_error ns i = Some (NStmt c) /\ nth_error (c_args c) j = Some v /\ P s v.
Lemma arg_at pe d tr m p h t xs x ys hs d' : doc_ok pe (d ++ ICall tr m p (Call h t (xs ++ x :: ys) hs) :: d') ->
  argument_in pe (d ++ ICall tr m p (Call h t (xs ++ x :: ys) hs) :: d') (length d) (length xs) (fun src v => param_is Loose pe src v x).
Proof.
  intros H o s Hw. destruct (C54_layout pe o _ s H Hw) as (ns & fs & E & F).
  destruct (Forall2_at _ _ _ _ _ F) as (n & En & Hn). inversion Hn as [|c ? ? ? ? ? Hc He Ht Hs| | | | | | |]; subst.
  inversion Hc as [? ? ? ? q args params ln ? ? ? ? Hq Ha Hh]; subst.
  destruct (Forall2_at _ _ _ _ _ Ha) as (v & Ev & Hv). eexists ns, fs, _, v. split; [exact E|]. split; [exact En|]. split; [exact Ev|exact Hv].
Qed.

(** ** C13: a quoted string denotes its characters, with [\n] and escaped quotes decoded.
    Missing: an escape right before the closing quote (refuted below). *)
Theorem C13_string_literal_partial : forall pe d tr m p h t xs sg l ys hs d',
  doc_ok pe (d ++ ICall tr m p (Call h t (xs ++ EStr sg l :: ys) hs) :: d') ->
  argument_in pe (d ++ ICall tr m p (Call h t (xs ++ EStr sg l :: ys) hs) :: d') (length d) (length xs)
    (fun _ v => exists sp ln, v = VJson (JStr (map (sitem_value (quote_of sg)) l)) sp ln).
Proof.
  intros. intros o s Hw. destruct (arg_at _ _ _ _ _ _ _ _ _ _ _ _ H o s Hw) as (ns & fs & c & v & E1 & E2 & E3 & E4). exists ns, fs, c, v.
  repeat (split; [assumption|]). inversion E4; subst. eauto.
Qed.
(** ... and text in brackets denotes the text between them, backslashes included *)
Theorem C13_bracket_literal : forall pe d tr m p h t xs w ys hs d',
  doc_ok pe (d ++ ICall tr m p (Call h t (xs ++ EArr w :: ys) hs) :: d') ->
  argument_in pe (d ++ ICall tr m p (Call h t (xs ++ EArr w :: ys) hs) :: d') (length d) (length xs)
    (fun _ v => exists sp ln, v = VJson (JStr w) sp ln).
Proof.
  intros. intros o s Hw. destruct (arg_at _ _ _ _ _ _ _ _ _ _ _ _ H o s Hw) as (ns & fs & c & v & E1 & E2 & E3 & E4). exists ns, fs, c, v.
  repeat (split; [assumption|]). inversion E4; subst. eauto.
Qed.
Example C13_nonvacuous : map (sitem_value 34%N) [SChar 97%N; SQuote; SNewline; SChar 92%N; SChar 98%N] = [97; 34; 10; 92; 98]%N
  /\ expr_text (EStr false [SChar 97%N; SQuote; SNewline; SChar 92%N; SChar 98%N]) = lit """a\""\n\b"""
  /\ path_text (HdName (lit "a")) [(false, SQuoted false [SChar 98%N; SQuote; SChar 32%N])] = lit "a." ++ [34; 98; 92; 34; 32; 34]%N
  /\ path_parts (HdName (lit "a")) [(false, SQuoted false [SChar 98%N; SQuote; SChar 32%N])] = [lit "a"; [98; 34; 32]%N]
  /\ doc_ok pe0 sample.
Proof. do 4 (split; [reflexivity|]). exact sample_ok. Qed.
(** An escaped quote just before the closing quote is dropped. *)
Theorem C13_final_escape_refuted :
  once reg0 (lit "{{json ""foo\""""}}") (JObj []) = AOk (html (lit """foo""")) /\ once reg0 (lit "{{json ""foo\""x""}}") (JObj []) = AOk (html (lit """foo\""x""")).
Proof. split; vm_compute; reflexivity. Qed.

(** ** C14: a path denotes its segments in order, the number of [../], [@root], [this], [./] and [/]. *)
Theorem C14_path : forall pe d tr m p h t xs ph pt ys hs d',
  doc_ok pe (d ++ ICall tr m p (Call h t (xs ++ EPath ph pt :: ys) hs) :: d') ->
  argument_in pe (d ++ ICall tr m p (Call h t (xs ++ EPath ph pt :: ys) hs) :: d') (length d) (length xs)
    (fun src v => exists q, v = VPath q
       /\ comp_values src (pa_comps q) = Some (path_parts ph pt)
       /\ pa_parents q = match ph with HdUp k _ => N.of_nat k | _ => 0%N end
       /\ (pa_root q = true <-> ph = HdLocal (lit "root"))
       /\ (pa_explicit q = true <-> ph = HdThis \/ exists s, ph = HdDot s)
       /\ (pa_absolute q = true <-> exists w, ph = HdAbs w)
       /\ (path_is_local q = true <-> exists w, ph = HdLocal w)).
Proof.
  intros. intros o s Hw. destruct (arg_at _ _ _ _ _ _ _ _ _ _ _ _ H o s Hw) as (ns & fs & c & v & E1 & E2 & E3 & E4). exists ns, fs, c, v.
  repeat (split; [assumption|]). inversion E4 as [| | | | |q ? ? Hq|]; subst. exists q. split; [reflexivity|].
  destruct Hq as (P1 & P2 & P3 & P4 & P5 & P6 & _). split; [exact P1|]. split; [exact P3|]. rewrite P5, P4, P2, P6.
  split; [|split; [|split]].
  - destruct ph; split; intro X; try discriminate X; [apply streq_eq in X; now rewrite X|injection X as ->; apply streq_refl].
  - destruct ph; split; intro X; try discriminate X; try reflexivity; try (destruct X as [X|(? & X)]; discriminate X); eauto.
  - destruct ph; split; intro X; try discriminate X; try reflexivity; try (destruct X as (? & X); discriminate X); eauto.
  - destruct ph; split; intro X; try discriminate X; try reflexivity; try (destruct X as (? & X); discriminate X); eauto.
Qed.
(** the target of a statement *)
Theorem C14_target : forall pe d tr m p h t xs hs d',
  doc_ok pe (d ++ ICall tr m p (Call h t xs hs) :: d') ->
  forall o s, doc_writes Loose (d ++ ICall tr m p (Call h t xs hs) :: d') s -> exists ns fs c q, compile pe o s = POk (NDoc ns) fs
    /\ nth_error ns (length d) = Some (NStmt c) /\ c_target c = TPath q
    /\ path_is s q h t.
Proof.
  intros pe d tr m p h t xs hs d' H o s Hw. destruct (C54_layout pe o _ s H Hw) as (ns & fs & E & F).
  destruct (Forall2_at _ _ _ _ _ F) as (n & En & Hn). inversion Hn as [|c ? ? ? ? ? Hc He Ht Hs| | | | | | |]; subst.
  inversion Hc as [? ? ? ? q args params ln ? ? ? ? Hq Ha Hh]; subst. eexists ns, fs, _, q. split; [exact E|]. split; [exact En|]. split; [reflexivity|exact Hq].
Qed.
Example C14_nonvacuous : path_text (HdUp 2 (lit "a")) [(false, SName (lit "b")); (true, SBracket (lit "c d"))] = lit "../../a.b/[c d]"
  /\ path_parts (HdUp 2 (lit "a")) [(false, SName (lit "b")); (true, SBracket (lit "c d"))] = [lit "a"; lit "b"; lit "c d"]
  /\ path_text (HdName (lit "a")) [(false, SQuoted false [SChar 98%N; SQuote; SChar 32%N])] = lit "a." ++ [34; 98; 92; 34; 32; 34]%N
  /\ path_parts (HdName (lit "a")) [(false, SQuoted false [SChar 98%N; SQuote; SChar 32%N])] = [lit "a"; [98; 34; 32]%N]
  /\ doc_ok pe0 sample.
Proof. do 4 (split; [reflexivity|]). exact sample_ok. Qed.

(** ** C16: an integer literal denotes its value exactly, below 2^64 and down to -2^63. *)
Lemma digits_lang s : s <> [] -> all_digits s = true -> number_text s.
Proof.
  intros Hs Hd. apply number_lang. unfold re_number. apply lang_cat_iff. exists [], s. split; [reflexivity|]. split; [apply lang_opt_iff; now left|].
  apply lang_cat_iff. exists [], s. split; [reflexivity|]. split; [apply lang_opt_iff; now left|].
  apply lang_cat_iff. exists s, []. split; [now rewrite app_nil_r|]. split; [|apply lang_opt_iff; now left].
  apply lang_plus_chr. split; [exact Hs|exact Hd].
Qed.
Lemma N_str_ne n : N_str n <> [].
Proof. destruct (N_str_head n) as (d & r & -> & _). discriminate. Qed.
Lemma nat_number pe n : (n < 18446744073709551616)%N -> expr_ok pe (ENum (N_str n)).
Proof. intro H. eapply ok_num; [apply digits_lang; [apply N_str_ne|apply N_str_digits]|now apply parse_number_N]. Qed.
Lemma neg_number pe q : (Npos q <= 9223372036854775808)%N -> expr_ok pe (ENum (Z_str (Zneg q))).
Proof.
  intro H. eapply ok_num; [|now apply parse_number_Z]. cbn [Z_str]. apply number_lang. unfold re_number. apply lang_cat_iff. exists [45%N], (N_str (Npos q)).
  split; [reflexivity|]. split; [apply lang_opt_iff; right; apply lang_chr_iff; exists 45%N; split; reflexivity|].
  pose proof (digits_lang _ (N_str_ne (Npos q)) (N_str_digits _)) as X. apply number_lang in X. unfold re_number in X. apply lang_cat_iff in X. destruct X as (a & b & E & Ha & Hb).
  apply lang_opt_iff in Ha. destruct Ha as [->|Ha]; [cbn [app] in E; rewrite E; exact Hb|]. exfalso. apply lang_chr_iff in Ha. destruct Ha as (c & -> & Hc).
  destruct (N_str_head (Npos q)) as (d & r & Ed & Hd & _). rewrite Ed in E. injection E as <- _.
  apply N.eqb_eq in Hc. subst d. discriminate Hd.
Qed.
Theorem C16_integers : forall pe d tr m p h t xs z ys hs d', (- 9223372036854775808 <= z < 18446744073709551616)%Z ->
  doc_ok pe (d ++ ICall tr m p (Call h t (xs ++ ENum (Z_str z) :: ys) hs) :: d') ->
  argument_in pe (d ++ ICall tr m p (Call h t (xs ++ ENum (Z_str z) :: ys) hs) :: d') (length d) (length xs)
    (fun _ v => exists n sp ln, v = VJson (JNum n) sp ln /\ number_str (fun _ => []) n = Z_str z
       /\ match n with PosInt k => Z.of_N k = z | NegInt k => k = z | Flt _ => False end).
Proof.
  intros pe d tr m p h t xs z ys hs d' Hz H o s Hw. destruct (arg_at _ _ _ _ _ _ _ _ _ _ _ _ H o s Hw) as (ns & fs & c & v & E1 & E2 & E3 & E4). exists ns, fs, c, v.
  repeat (split; [assumption|]). inversion E4 as [| |s1 n sp ln Hn| | | |]; subst. exists n, sp, ln. split; [reflexivity|].
  destruct z as [|q|q].
  - change (Z_str 0) with (N_str 0) in *. rewrite parse_number_N in Hn by reflexivity. injection Hn as <-. split; reflexivity.
  - cbn [Z_str] in *. rewrite parse_number_N in Hn by lia. injection Hn as <-. split; reflexivity.
  - rewrite parse_number_Z in Hn by lia. injection Hn as <-. split; reflexivity.
Qed.
(** every such integer may be written anywhere an argument may *)
Theorem C16_integers_accepted : forall pe z, (- 9223372036854775808 <= z < 18446744073709551616)%Z -> expr_ok pe (ENum (Z_str z)).
Proof.
  intros pe [|q|q] H.
  - apply (nat_number pe 0). reflexivity.
  - apply (nat_number pe (Npos q)). lia.
  - apply neg_number. lia.
Qed.
Example C16_nonvacuous : doc_ok pe0 sample /\ Z_str (-12) = lit "-12" /\
  once reg0 (lit "{{json 18446744073709551615}} {{json -9223372036854775808}}") (JObj []) = AOk (lit "18446744073709551615 -9223372036854775808").
Proof. split; [exact sample_ok|]. split; [reflexivity|]. vm_compute. reflexivity. Qed.

(** * SynLayout: the printed text is a way of writing (in every layout), and the only one that is [Tight]. *)
From Coq Require Import Lia String.
From Verif Require Import Str Lexer Json Ast Parser StrFacts Spec_Source SynLex.
Open Scope nat_scope. Open Scope list_scope.

Lemma between_one ly : between ly [32%N].
Proof. destruct ly; cbn; [reflexivity|]. split; [|discriminate]. intros c [<-|[]]. cbn. tauto. Qed.
Lemma around_none ly : around ly [].
Proof. destruct ly; cbn; [reflexivity|]. intros c []. Qed.
Lemma blank_none ly : blank_gap ly [].
Proof. destruct ly; cbn; [reflexivity|]. intros c []. Qed.
Lemma gt_one ly : after_gt ly [32%N].
Proof. destruct ly; cbn; [reflexivity|]. intros c [<-|[]]. cbn. tauto. Qed.

Lemma args_canon ly args : (forall e, In e args -> expr_writes ly e (expr_text e)) -> args_write ly args (flat_map (fun e => [32%N] ++ expr_text e) args).
Proof.
  induction args as [|e args IH]; intros H; [constructor|]. cbn [flat_map]. rewrite <- app_assoc. constructor; [apply between_one|apply H; now left|].
  apply IH. intros e' He'. apply H. now right.
Qed.
Lemma hash_canon ly hash : (forall kv, In kv hash -> expr_writes ly (snd kv) (expr_text (snd kv))) ->
  hash_writes ly hash (flat_map (fun kv => [32%N] ++ fst kv ++ [61%N] ++ expr_text (snd kv)) hash).
Proof.
  induction hash as [|[k e] hash IH]; intros H; [constructor|]. cbn [flat_map fst snd].
  match goal with |- hash_writes _ _ ?b => replace b with
    ([32%N] ++ (k ++ [61%N]) ++ expr_text e ++ flat_map (fun kv => [32%N] ++ fst kv ++ [61%N] ++ expr_text (snd kv)) hash) by (now rewrite <- !app_assoc) end.
  constructor; [apply between_one|apply (H (k, e)); now left|]. apply IH. intros e' He'. apply H. now right.
Qed.
Lemma in_flat_len {A} (f : A -> str) x l : In x l -> length (f x) <= length (flat_map f l).
Proof. intros H. apply in_split in H. destruct H as (a & b & ->). rewrite flat_map_app. cbn [flat_map]. rewrite !app_length. lia. Qed.
Lemma canon_expr ly n : (forall e, length (expr_text e) < n -> expr_writes ly e (expr_text e)) /\ (forall c, length (call_text c) < n -> call_writes ly c (call_text c)).
Proof.
  induction n as [|n [IHe IHc]]; [split; intros; lia|].
  assert (Hcall : forall c, length (call_text c) < S n -> call_writes ly c (call_text c)).
  { intros [h t args hash] Hl. cbn [call_text] in *. rewrite !app_length in Hl. constructor.
    - apply args_canon. intros e He. apply IHe. pose proof (in_flat_len (fun e => [32%N] ++ expr_text e) e args He) as X. cbv beta in X. rewrite app_length in X. cbn [length] in X. unfold str, chr in *. lia.
    - apply hash_canon. intros kv Hkv. apply IHe. pose proof (in_flat_len (fun kv => [32%N] ++ fst kv ++ [61%N] ++ expr_text (snd kv)) kv hash Hkv) as X. cbv beta in X.
      rewrite !app_length in X. cbn [length] in X. unfold str, chr in *. lia. }
  split; [|exact Hcall]. intros e Hl. destruct e as [sg l|w|s|b| |h t|c].
  - constructor.
  - constructor.
  - constructor.
  - constructor.
  - constructor.
  - constructor.
  - cbn [expr_text] in *. pose proof (w_sub ly c [] (call_text c) [] (around_none ly)) as X. cbn [app] in X. apply X; [|apply around_none]. apply IHc.
    rewrite !app_length in Hl. cbn [length] in Hl. unfold str, chr in *. lia.
Qed.
Lemma call_canon ly c : call_writes ly c (call_text c).
Proof. eapply canon_expr. apply Nat.lt_succ_diag_r. Qed.
Lemma expr_canon ly e : expr_writes ly e (expr_text e).
Proof. eapply canon_expr. apply Nat.lt_succ_diag_r. Qed.

Lemma opening_canon ly l m mark : opening ly l m mark (open_tag l m ++ mark).
Proof. exists [], []. split; [cbn [app]; now rewrite app_nil_r|]. split; [apply blank_none|apply around_none]. Qed.
Lemma ending_canon ly m r : ending ly m r (close_tag m r).
Proof. exists []. split; [reflexivity|apply around_none]. Qed.
Lemma partial_canon ly p : partial_writes ly p (partial_text p).
Proof. destruct p; cbn; [|reflexivity]. exists [32%N]. split; [reflexivity|apply gt_one]. Qed.
Lemma tag_canon ly l m mark p c r : tag_writes ly l m mark p c r ((open_tag l m ++ mark) ++ partial_text p ++ call_text c ++ close_tag m r).
Proof. exists (open_tag l m ++ mark), (partial_text p), (call_text c), (close_tag m r). auto using opening_canon, partial_canon, call_canon, ending_canon. Qed.
Lemma close_canon ly l m w r : close_writes ly l m w r ((open_tag l m ++ [47%N]) ++ w ++ close_tag m r).
Proof. exists (open_tag l m ++ [47%N]), (close_tag m r). auto using opening_canon, ending_canon. Qed.
Lemma else_canon ly cond m : else_writes ly cond m
  (open_tag "{{" m ++ lit "else" ++ (match cond with Some c => [32%N] ++ call_text c | None => [] end) ++ close_tag m "}}").
Proof.
  exists (open_tag "{{" m ++ []), (match cond with Some c => [32%N] ++ call_text c | None => [] end), (close_tag m "}}").
  split; [now rewrite app_nil_r|]. split; [apply opening_canon|]. split; [apply ending_canon|]. destruct cond as [c|]; [|reflexivity].
  exists [32%N], (call_text c). auto using between_one, call_canon.
Qed.
Lemma dyn_canon ly c xs hs : dyn_writes ly c xs hs (dyn_text c xs hs).
Proof.
  exists (expr_text (ESub c)), (flat_map (fun e => [32%N] ++ expr_text e) xs), (flat_map (fun kv => [32%N] ++ fst kv ++ [61%N] ++ expr_text (snd kv)) hs).
  split; [reflexivity|]. split; [apply expr_canon|]. split; [apply args_canon|apply hash_canon]; intros; apply expr_canon.
Qed.
Lemma dyn_tag_canon ly l m mark p c xs hs r :
  tag_around ly l m mark p (dyn_writes ly c xs hs) r ((open_tag l m ++ mark) ++ partial_text p ++ dyn_text c xs hs ++ close_tag m r).
Proof. exists (open_tag l m ++ mark), (partial_text p), (dyn_text c xs hs), (close_tag m r). auto using opening_canon, partial_canon, dyn_canon, ending_canon. Qed.
(** a written call does not start with a blank *)
Definition no_blank (s : str) : Prop := match s with [] => False | c :: _ => ~ In c [32; 9]%N end.
Lemma no_blank_app u v : no_blank u -> no_blank (u ++ v).
Proof. destruct u; [easy|]. exact (fun H => H). Qed.
Lemma ident_no_blank c r : is_ident c = true -> no_blank (c :: r).
Proof. intros H [<-|[<-|[]]]; vm_compute in H; discriminate. Qed.
Lemma name_no_blank w r : name_ok w -> no_blank (w ++ r).
Proof. intros (H & Hi & _)%name_in. destruct w as [|c w]; [contradiction|]. cbn in Hi. apply andb_true_iff in Hi. destruct Hi as [Hi _]. now apply ident_no_blank. Qed.
Lemma head_no_blank h r : head_ok h -> no_blank (head_text h ++ r).
Proof.
  destruct h as [w| |s|k w|w|w]; cbn [head_ok head_text]; intros H.
  - now apply name_no_blank.
  - cbn. intuition discriminate.
  - cbn. intuition discriminate.
  - destruct k as [|k]; [lia|]. cbn. intuition discriminate.
  - cbn. intuition discriminate.
  - contradiction.
Qed.
Lemma call_no_blank pe ly c u r : callx_ok pe c -> call_writes ly c u -> no_blank (u ++ r).
Proof. intros Hc Hu. inversion Hu; subst. inversion Hc; subst. unfold path_text. rewrite <- !app_assoc. now apply head_no_blank. Qed.
Lemma sticks_canon pe l m p c r : callx_ok pe c -> tilde_sticks l m ((open_tag l m ++ []) ++ partial_text p ++ call_text c ++ close_tag m r).
Proof.
  intros Hc Hm x w E. rewrite app_nil_r in E. apply app_inv_head in E.
  assert (H : no_blank (partial_text p ++ call_text c ++ close_tag m r)).
  { destruct p; [cbn; intuition discriminate|]. cbn [partial_text app]. eapply call_no_blank; [exact Hc|apply (call_canon Loose)]. }
  rewrite E in H. exact H.
Qed.

Lemma dyn_sticks l m p c xs hs r : tilde_sticks l m ((open_tag l m ++ []) ++ partial_text p ++ dyn_text c xs hs ++ close_tag m r).
Proof.
  intros Hm x w E. rewrite app_nil_r in E. apply app_inv_head in E.
  assert (H : no_blank (partial_text p ++ dyn_text c xs hs ++ close_tag m r)) by (destruct p; cbn; intuition discriminate).
  rewrite E in H. exact H.
Qed.

Definition branch_text (br : option callx * tildes * list item) : str :=
  open_tag "{{" (snd (fst br)) ++ lit "else" ++ (match fst (fst br) with Some c => [32%N] ++ call_text c | None => [] end)
  ++ close_tag (snd (fst br)) "}}" ++ flat_map item_text (snd br).
Lemma branches_canon ly brs : (forall b, In b brs -> Forall2 (item_writes ly) (snd b) (map item_text (snd b))) -> branches_write ly brs (flat_map branch_text brs).
Proof.
  induction brs as [|[[cond m] body] brs IH]; intros H; [constructor|]. cbn [flat_map branch_text fst snd].
  pose proof (wB_cons ly cond m body brs _ (map item_text body) (flat_map branch_text brs) (else_canon ly cond m)) as X.
  rewrite <- flat_map_concat_map in X.
  match type of X with _ -> _ -> branches_write _ _ ?a => match goal with |- branches_write _ _ ?b => replace b with a end end.
  - apply X; [apply (H (cond, m, body)); now left|]. apply IH. intros b Hb. apply H. now right.
  - unfold branch_text at 2. cbn [fst snd]. rewrite <- !app_assoc. reflexivity.
Qed.
Lemma items_sub pe l : forall a b i, items_ok pe a b l -> In i l -> item_ok pe i.
Proof. induction l as [|j l IH]; intros a b i H Hi; [contradiction|]. inversion H; subst; destruct Hi as [<-|Hi]; eauto using okI_text. Qed.
Lemma item_canon pe ly n : forall i, length (item_text i) < n -> item_ok pe i -> item_writes ly i (item_text i).
Proof.
  induction n as [|n IH]; [lia|]. intros i Hn Hok.
  assert (Hsub : forall l a b, length (flat_map item_text l) < n -> items_ok pe a b l -> Forall2 (item_writes ly) l (map item_text l)).
  { intros l a b Hl Hit. assert (Hall : forall j, In j l -> item_writes ly j (item_text j)).
    { intros j Hj. apply IH; [pose proof (in_flat_len item_text j l Hj); lia|eapply items_sub; eassumption]. }
    clear - Hall. induction l as [|j l IHl]; [constructor|]. constructor; [apply Hall; now left|]. apply IHl. intros k Hk. apply Hall. now right. }
  destruct i as [s|tr m p c|tr m p c xs hs|s|s|s|esc parts|c m s m'|p c m body bs m'].
  - constructor.
  - assert (Hc : callx_ok pe c) by (inversion Hok; assumption).
    destruct tr; cbn [item_text].
    + pose proof (tag_canon ly "{{{" m [] p c "}}}") as X. pose proof (sticks_canon pe "{{{" m p c "}}}" Hc) as Y. rewrite app_nil_r in X, Y. now constructor.
    + pose proof (tag_canon ly "{{" m [] p c "}}") as X. pose proof (sticks_canon pe "{{" m p c "}}" Hc) as Y. rewrite app_nil_r in X, Y. now constructor.
  - destruct tr; cbn [item_text].
    + pose proof (dyn_tag_canon ly "{{{" m [] p c xs hs "}}}") as X. pose proof (dyn_sticks "{{{" m p c xs hs "}}}") as Y. rewrite app_nil_r in X, Y. now constructor.
    + pose proof (dyn_tag_canon ly "{{" m [] p c xs hs "}}") as X. pose proof (dyn_sticks "{{" m p c xs hs "}}") as Y. rewrite app_nil_r in X, Y. now constructor.
  - constructor.
  - constructor.
  - constructor.
  - constructor.
  - cbn [item_text].
    replace (open_tag "{{{{" m ++ call_text c ++ close_tag m "}}}}" ++ s ++ open_tag "{{{{" m' ++ lit "/" ++ call_name c ++ close_tag m' "}}}}")
      with (((open_tag "{{{{" m ++ []) ++ partial_text false ++ call_text c ++ close_tag m "}}}}") ++ s ++ ((open_tag "{{{{" m' ++ [47%N]) ++ call_name c ++ close_tag m' "}}}}"))
      by (rewrite app_nil_r, <- !app_assoc; reflexivity).
    constructor; [apply tag_canon|apply close_canon].
  - inversion Hok as [| | | | | | | |? ? ? ? ? ? H1 H2 H3 H4 H5]; subst. cbn [item_text] in *.
    match type of Hn with context [flat_map ?f bs] => change (flat_map f bs) with (flat_map branch_text bs) in * end.
    rewrite !app_length in Hn. unfold open_tag in Hn. rewrite !app_length in Hn. change (length (lit "{{")) with 2 in Hn.
    replace (open_tag "{{" m ++ lit "#" ++ partial_text p ++ call_text c ++ close_tag m "}}" ++ flat_map item_text body ++ flat_map branch_text bs ++ open_tag "{{" m' ++ lit "/" ++ call_name c ++ close_tag m' "}}")
      with (((open_tag "{{" m ++ [35%N]) ++ partial_text p ++ call_text c ++ close_tag m "}}") ++ concat (map item_text body) ++ flat_map branch_text bs ++ ((open_tag "{{" m' ++ [47%N]) ++ call_name c ++ close_tag m' "}}"))
      by (rewrite <- flat_map_concat_map, <- !app_assoc; reflexivity).
    constructor; [apply tag_canon|eapply Hsub; [|exact H3]; lia| |apply close_canon].
    apply branches_canon. intros b Hb. rewrite Forall_forall in H4. destruct (H4 b Hb) as [_ Hit]. eapply Hsub; [|exact Hit].
    pose proof (in_flat_len branch_text b bs Hb) as X. unfold branch_text at 1 in X. rewrite !app_length in X. unfold str, chr in *. lia.
Qed.
Lemma items_canon pe ly a b d : items_ok pe a b d -> Forall2 (item_writes ly) d (map item_text d).
Proof.
  intros H. assert (Hall : forall j, In j d -> item_writes ly j (item_text j)) by (intros j Hj; eapply item_canon; [apply Nat.lt_succ_diag_r|eapply items_sub; eassumption]).
  clear H. induction d as [|j l IHl]; [constructor|]. constructor; [apply Hall; now left|]. apply IHl. intros k Hk. apply Hall. now right.
Qed.
Lemma doc_canon pe ly d : doc_ok pe d -> doc_writes ly d (doc_text d).
Proof. intros H. exists (map item_text d). split; [eapply items_canon; exact H|]. unfold doc_text. apply flat_map_concat_map. Qed.

(** ** The tight layout is the printed one *)
Scheme expr_w_ind := Induction for expr_writes Sort Prop
  with call_w_ind := Induction for call_writes Sort Prop
  with args_w_ind := Induction for args_write Sort Prop
  with hash_w_ind := Induction for hash_writes Sort Prop.
Combined Scheme writes_ind from expr_w_ind, call_w_ind, args_w_ind, hash_w_ind.
Lemma tight_text :
  (forall e s, expr_writes Tight e s -> s = expr_text e) /\ (forall c s, call_writes Tight c s -> s = call_text c)
  /\ (forall l s, args_write Tight l s -> s = flat_map (fun e => [32%N] ++ expr_text e) l)
  /\ (forall l s, hash_writes Tight l s -> s = flat_map (fun kv => [32%N] ++ fst kv ++ [61%N] ++ expr_text (snd kv)) l).
Proof.
  apply (writes_ind Tight (fun e s _ => s = expr_text e) (fun c s _ => s = call_text c)
    (fun l s _ => s = flat_map (fun e => [32%N] ++ expr_text e) l)
    (fun l s _ => s = flat_map (fun kv => [32%N] ++ fst kv ++ [61%N] ++ expr_text (snd kv)) l)); try reflexivity.
  - intros c g u g' Hg _ -> Hg'. cbn in Hg, Hg'. subst. reflexivity.
  - intros h t args hash sa sh _ -> _ ->. reflexivity.
  - intros e l g u r Hg _ -> _ ->. cbn in Hg. subst. reflexivity.
  - intros k e l g u r Hg _ -> _ ->. cbn in Hg. subst. cbn [flat_map fst snd]. rewrite <- !app_assoc. reflexivity.
Qed.
Lemma tight_tag l m mark p c r s : tag_writes Tight l m mark p c r s -> s = open_tag l m ++ mark ++ partial_text p ++ call_text c ++ close_tag m r.
Proof.
  intros (a & f & u & z & -> & (g & g' & -> & Hg & Hg') & Hf & Hu & (gz & -> & Hz)). cbn in Hg, Hg', Hz. subst. apply tight_text in Hu. subst u.
  assert (Ef : f = partial_text p) by (destruct p; cbn in Hf; [destruct Hf as (g & -> & ->); reflexivity|exact Hf]). subst f.
  cbn [app]. rewrite app_nil_r, <- !app_assoc. reflexivity.
Qed.
Lemma tight_dyn c xs hs s : dyn_writes Tight c xs hs s -> s = dyn_text c xs hs.
Proof. intros (u & sa & sh & -> & Hu & Ha & Hh). apply tight_text in Hu, Ha, Hh. now subst. Qed.
Lemma tight_dyn_tag l m mark p c xs hs r s : tag_around Tight l m mark p (dyn_writes Tight c xs hs) r s -> s = open_tag l m ++ mark ++ partial_text p ++ dyn_text c xs hs ++ close_tag m r.
Proof.
  intros (a & f & u & z & -> & (g & g' & -> & Hg & Hg') & Hf & Hu & (gz & -> & Hz)). cbn in Hg, Hg', Hz. subst. apply tight_dyn in Hu. subst u.
  assert (Ef : f = partial_text p) by (destruct p; cbn in Hf; [destruct Hf as (g & -> & ->); reflexivity|exact Hf]). subst f.
  cbn [app]. rewrite app_nil_r, <- !app_assoc. reflexivity.
Qed.
Lemma tight_close l m w r s : close_writes Tight l m w r s -> s = open_tag l m ++ [47%N] ++ w ++ close_tag m r.
Proof. intros (a & z & -> & (g & g' & -> & Hg & Hg') & (gz & -> & Hz)). cbn in Hg, Hg', Hz. subst. cbn [app]. rewrite <- !app_assoc. reflexivity. Qed.
Lemma tight_else cond m s : else_writes Tight cond m s ->
  s = open_tag "{{" m ++ lit "else" ++ (match cond with Some c => [32%N] ++ call_text c | None => [] end) ++ close_tag m "}}".
Proof.
  intros (a & f & z & -> & (g & g' & -> & Hg & Hg') & (gz & -> & Hz) & Hc). cbn in Hg, Hg', Hz. subst. cbn [app]. rewrite app_nil_r.
  destruct cond as [c|]; [|subst f; reflexivity]. destruct Hc as (g & u & -> & Hb & Hu). cbn in Hb. subst g. apply tight_text in Hu. now subst u.
Qed.
Lemma item_tight n : forall i s, length s < n -> item_writes Tight i s -> s = item_text i.
Proof.
  induction n as [|n IH]; [lia|]. intros i s Hn Hw.
  assert (Hsub : forall l ss, length (concat ss) < n -> Forall2 (item_writes Tight) l ss -> concat ss = flat_map item_text l).
  { intros l. induction l as [|j l IHl]; intros ss Hl Hss; inversion Hss; subst; [reflexivity|]. cbn [concat flat_map] in *. rewrite app_length in Hl.
    f_equal; [apply IH; [lia|assumption]|apply IHl; [lia|assumption]]. }
  assert (Hbr : forall bs bb, length bb < n -> branches_write Tight bs bb -> bb = flat_map branch_text bs).
  { intros bs. induction bs as [|b bs IHb]; intros bb Hl Hb; inversion Hb as [|cond m body rest e ss bb' He Hss Hrest]; subst; [reflexivity|]. cbn [flat_map]. rewrite !app_length in Hl.
    rewrite (IHb bb') by (try assumption; lia). rewrite (Hsub body ss) by (try assumption; lia). apply tight_else in He. subst e. unfold branch_text at 2. cbn [fst snd]. now rewrite <- !app_assoc. }
  inversion Hw as [|? ? ? ? Ht|? ? ? ? Ht|? ? ? ? ? ? Ht|? ? ? ? ? ? Ht| | | | |? ? ? ? a z Ha Hz|? ? ? ? ? ? a ss bb z Ha Hss Hbb Hz]; subst; try reflexivity.
  - apply tight_tag in Ht. exact Ht.
  - apply tight_tag in Ht. exact Ht.
  - apply tight_dyn_tag in Ht. exact Ht.
  - apply tight_dyn_tag in Ht. exact Ht.
  - apply tight_tag in Ha. apply tight_close in Hz. subst. cbn [item_text partial_text app]. rewrite <- !app_assoc. reflexivity.
  - apply tight_tag in Ha. apply tight_close in Hz. rewrite !app_length in Hn. assert (1 <= length a) by (subst a; unfold open_tag; cbn; lia).
    rewrite (Hsub body ss) by (try assumption; lia). rewrite (Hbr branches bb) by (try assumption; lia). subst. cbn [item_text]. rewrite <- !app_assoc. reflexivity.
Qed.
Lemma items_tight d ss : Forall2 (item_writes Tight) d ss -> ss = map item_text d.
Proof. intros H. induction H as [|i s d ss Hi _ IH]; [reflexivity|]. cbn [map]. f_equal; [|exact IH]. eapply item_tight; [apply Nat.lt_succ_diag_r|exact Hi]. Qed.
Lemma doc_tight d s : doc_writes Tight d s -> s = doc_text d.
Proof. intros (ss & H & ->). rewrite (items_tight _ _ H). unfold doc_text. symmetry. apply flat_map_concat_map. Qed.

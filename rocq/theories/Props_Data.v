(** * Props_Data: data that is not reached has no effect (C81). *)
From Coq Require Import Lia String.
From Verif Require Import Str Lexer Json Ast Parser Render Helpers Registry Tests StrFacts Spec_Lexer Spec_Values Spec_Helpers Spec_Blocks Spec_Calls Props_Calls Props_Context CycleFacts Spec_Source SynBlock SynLayout Props_Source Spec_Sem SemFacts SemItems Props_Sem Spec_Fail FailItems Props_Fail Spec_Total TotalFacts Props_Total Props_Unused Spec_Data DataFacts.
Open Scope nat_scope. Open Scope list_scope.

Lemma fits_data pl reg data data' docs : fits (mkWorld pl reg data docs) -> fits (mkWorld pl reg data' docs).
Proof.
  intros [F1 F2]. constructor; [exact F1|]. intros n d H. destruct (F2 n d H) as (X1 & X2 & X3 & X4). split; [exact X1|]. split; [|split; [exact X3|exact X4]].
  eapply Forall_impl; [|exact X2]. intros i. now apply regular_docs.
Qed.

(** Two data values that hold the same under the names [N] are rendered to the same result, with the same text written, by a template that reads
    only what is under these names ([H]: the names of helpers it may call), and whose partials do. *)
Theorem C81_unreached_data : forall pl reg data data' docs H N d s name wr o te, let w := mkWorld pl reg data docs in
  agree N data data' -> discreet_registry reg ->
  (forall n, In n H -> assoc n (rg_helpers reg) <> None) -> (forall n, In n H -> In n block_helpers -> standard w n) ->
  fits w -> closed w -> doc_ok (pl_penv pl) d -> doc_writes Loose d s -> Forall (regular w) d -> Forall (tame w) d ->
  forallb (item_within H N false) d = true -> (forall m x, assoc m docs = Some x -> forallb (item_within H N true) x = true) ->
  (forall h s, exists n, wr h s = WOk n) -> template_compile pl o s = AOk te ->
  exists B, forall fuel, B <= fuel ->
    let x := template_render fuel pl reg name (te_tpl te) data wr [] in
    let x' := template_render fuel pl reg name (te_tpl te) data' wr [] in
    fst x' = fst x /\ fst x <> AFuel /\ ((forall p, fst x <> APanic p) -> concat (snd x') = concat (snd x)).
Proof.
  intros pl reg data data' docs H N d s name wr o te w Ha Hdr Hh Hst Hf Hc Hd Hs Hr Ht Hn Hdn Hw Hte.
  pose proof (fits_data pl reg data data' docs Hf) as Hf'.
  assert (Hr' : Forall (regular (mkWorld pl reg data' docs)) d) by (eapply Forall_impl; [|exact Hr]; intros i; now apply regular_docs).
  destruct (C65_total w name d Hf Hc Hd Ht) as [(pb & out & X)|(out & err & X)].
  - pose proof (proj1 (proj1 (proj2 (out_move pl reg data data' docs H N Ha Hdr Hh Hst Hdn)) _ _ _ _ _ _ _ _ X false Hn (topped_false _) I)) as X'.
    destruct (C55_semantics pl reg data docs d s pb out name wr o te Hf Hd Hs Hr X Hw Hte) as (B & HB).
    destruct (C55_semantics pl reg data' docs d s pb out name wr o te Hf' Hd Hs Hr' X' Hw Hte) as (B' & HB').
    exists (B + B'). intros fuel Hfu x x'. destruct (HB fuel ltac:(lia)) as (p1 & E1 & F1). destruct (HB' fuel ltac:(lia)) as (p2 & E2 & F2). unfold x, x'. rewrite E1, E2. cbn [fst snd].
    split; [reflexivity|]. split; [discriminate|]. intros _. congruence.
  - pose proof (proj1 (proj2 (err_move pl reg data data' docs H N Ha Hdr Hh Hst Hdn name)) _ _ _ _ _ _ _ _ X false Hn (topped_false _) I) as X'. destruct err as [err|].
    + destruct (C64_semantics pl reg data docs d s out err name wr o te Hf Hd Hs Hr X Hw Hte) as (B & HB).
      destruct (C64_semantics pl reg data' docs d s out err name wr o te Hf' Hd Hs Hr' X' Hw Hte) as (B' & HB').
      exists (B + B'). intros fuel Hfu x x'. destruct (HB fuel ltac:(lia)) as (p1 & E1 & F1). destruct (HB' fuel ltac:(lia)) as (p2 & E2 & F2). unfold x, x'. rewrite E1, E2. cbn [fst snd].
      split; [reflexivity|]. split; [discriminate|]. intros _. congruence.
    + destruct (C64_panics pl reg data docs d s out name wr o te Hf Hd Hs Hr X Hw Hte) as (B & HB).
      destruct (C64_panics pl reg data' docs d s out name wr o te Hf' Hd Hs Hr' X' Hw Hte) as (B' & HB').
      exists (B + B'). intros fuel Hfu x x'. pose proof (HB fuel ltac:(lia)) as E1. pose proof (HB' fuel ltac:(lia)) as E2. unfold x, x'. rewrite E1, E2.
      split; [reflexivity|]. split; [discriminate|]. intros Y. destruct (Y _ eq_refl).
Qed.
Print Assumptions C81_unreached_data.

(** the same for [once] *)
Theorem C81_once : forall pl reg data data' docs H N d s name r, let w := mkWorld pl reg data docs in
  agree N data data' -> discreet_registry reg ->
  (forall n, In n H -> assoc n (rg_helpers reg) <> None) -> (forall n, In n H -> In n block_helpers -> standard w n) ->
  fits w -> closed w -> doc_ok (pl_penv pl) d -> doc_writes Loose d s -> Forall (regular w) d -> Forall (tame w) d ->
  forallb (item_within H N false) d = true -> (forall m x, assoc m docs = Some x -> forallb (item_within H N true) x = true) ->
  (answers pl reg data' name s r <-> answers pl reg data name s r).
Proof.
  intros pl reg data data' docs H N d s name r w Ha Hdr Hh Hst Hf Hc Hd Hs Hr Ht Hn Hdn. destruct (compiles pl d s (mkOpts name 0 0) Hd Hs) as (te & Hte).
  destruct (C81_unreached_data pl reg data data' docs H N d s name string_writer _ te Ha Hdr Hh Hst Hf Hc Hd Hs Hr Ht Hn Hdn ltac:(intros; eexists; reflexivity) Hte) as (B & HB).
  assert (E : forall fuel, B <= fuel -> registry_once fuel pl reg name s data' = registry_once fuel pl reg name s data).
  { intros fuel Hfu. destruct (HB fuel Hfu) as (H1 & H2 & H3). unfold registry_once. rewrite Hte. unfold to_str.
    destruct (template_render fuel pl reg name (te_tpl te) data string_writer []) as [x p], (template_render fuel pl reg name (te_tpl te) data' string_writer []) as [x' p']. cbn [fst snd] in *. subst x'.
    destruct x; try reflexivity. f_equal. apply H3. discriminate. }
  split; intros (M & HM); exists (B + M); intros fuel Hfu; [rewrite <- E by lia|rewrite E by lia]; apply HM; lia.
Qed.
Print Assumptions C81_once.

(** ** The helpers of the crate *)
Lemma htry_discreet {A} (k : A -> hprog) r : (forall a, discreet (k a)) -> discreet (htry k r).
Proof. intros H. destruct r; [apply H|constructor]. Qed.
Lemma each_obj_discreet t k : discreet k -> forall l i, discreet (each_obj t i l k).
Proof. intros Hk l. induction l as [|[key v] l IH]; intros i; cbn [each_obj]; [exact Hk|]. constructor. constructor. intros r. apply htry_discreet. intros _. apply IH. Qed.
Lemma each_arr_discreet t len k : discreet k -> forall l i, discreet (each_arr t len i l k).
Proof. intros Hk l. induction l as [|v l IH]; intros i; cbn [each_arr]; [exact Hk|]. constructor. constructor. intros r. apply htry_discreet. intros _. apply IH. Qed.
Lemma log_lines_discreet lv k : discreet k -> forall ls, discreet (log_lines lv ls k).
Proof. intros Hk ls. induction ls as [|l ls IH]; cbn [log_lines]; [exact Hk|]. now constructor. Qed.
Ltac dstep := first [apply htry_discreet; intros ? | apply each_obj_discreet | apply each_arr_discreet | apply log_lines_discreet | constructor; intros; try (match goal with |- discreet _ => idtac end)
  | match goal with |- discreet (match ?x with _ => _ end) => destruct x end ].
Lemma assoc_in' {A} n (v : A) l : assoc n l = Some v -> exists m, In (m, v) l.
Proof. induction l as [|[k x] l IH]; cbn [assoc]; [discriminate|]. destruct (streq n k); [intros [= ->]; exists k; now left|]. intros H. destruct (IH H) as (m & X). exists m. now right. Qed.
Lemma builtin_discreet pl n h : builtin pl n h -> forall ctx t, discreet (h ctx t).
Proof.
  intros E ctx t. unfold builtin in E. apply assoc_in' in E. destruct E as (m & E).
  change (rg_helpers (registry_new pl)) with (builtins (pl_fstr pl)) in E. unfold builtins in E.
  repeat (destruct E as [E|E]; [injection E as _ <-|]); [..|contradiction E];
    unfold if_helper, unless_helper, with_helper, each_helper, eq_helper, ne_helper, gt_helper, gte_helper, lt_helper, lte_helper, cmp_helper, and_helper, or_helper, not_helper, lookup_helper, json_helper, log_helper, with_arity, with_arg; cbv zeta;
    repeat (dstep || unfold with_arg).
Qed.

Lemma standard_discreet w : only_standard w -> discreet_registry (w_reg w).
Proof.
  intros (H1 & H2 & H3 & H4) f [(n & E)|[E|[E|E]]] ctx t; [exact (builtin_discreet _ _ _ (H1 n f E) ctx t)|congruence..].
Qed.

(** ** A field of an object that no path of the template names *)
Lemma field_assoc l k v : has_field (JObj l) k v <-> assoc k l = Some v.
Proof.
  split.
  - intros H. remember (JObj l) as o eqn:E. destruct H as [pre k v post Hn|]; [|discriminate E]. injection E as <-.
    induction pre as [|[k' v'] pre IH]; cbn [app assoc].
    + now rewrite (proj2 (streq_eq k k) eq_refl).
    + destruct (streq k k') eqn:E; [apply streq_eq in E; subst; destruct Hn; now left|]. apply IH. intros X. apply Hn. now right.
  - assert (G : forall l pre, ~ In k (map fst pre) -> assoc k l = Some v -> has_field (JObj (pre ++ l)) k v); [|apply (G l [] (fun x => x))].
    clear l. intros l. induction l as [|[k' v'] l IH]; intros pre Hn; cbn [assoc]; [discriminate|]. destruct (streq k k') eqn:E.
    + intros [= ->]. apply streq_eq in E. subst k'. now constructor.
    + intros H. replace (pre ++ (k', v') :: l) with ((pre ++ [(k', v')]) ++ l) by (rewrite <- app_assoc; reflexivity). apply IH; [|exact H]. rewrite map_app, in_app_iff. cbn. intros [X|[X|[]]]; [auto|]. subst k'. rewrite (proj2 (streq_eq k k) eq_refl) in E. discriminate E.
Qed.
Lemma agree_fields N l l' : (forall n, In n N -> assoc n l = assoc n l') -> agree N (JObj l) (JObj l').
Proof.
  intros H n p v Hn. specialize (H n Hn).
  split; intros X; inversion X as [a k u Y|a k u ks u' Y Z]; subst; apply field_assoc in Y; (rewrite H in Y || rewrite <- H in Y); apply field_assoc in Y; econstructor; eassumption.
Qed.
Theorem C81_extra_field : forall pl reg l k v docs H N d s name r, let w := mkWorld pl reg (JObj l) docs in
  ~ In k N -> only_standard w -> (forall n, In n H -> standard w n) ->
  fits w -> closed w -> doc_ok (pl_penv pl) d -> doc_writes Loose d s -> Forall (regular w) d -> Forall (tame w) d ->
  forallb (item_within H N false) d = true -> (forall m x, assoc m docs = Some x -> forallb (item_within H N true) x = true) ->
  (answers pl reg (JObj (obj_insert k v l)) name s r <-> answers pl reg (JObj l) name s r).
Proof.
  intros pl reg l k v docs H N d s name r w Hk Ho Hst Hf Hc Hd Hs Hr Ht Hn Hdn. apply (C81_once pl reg (JObj l) (JObj (obj_insert k v l)) docs H N d); try assumption.
  - apply agree_fields. intros n X. symmetry. apply insert_other. intros ->. contradiction.
  - exact (standard_discreet w Ho).
  - intros n X. destruct (Hst n X) as (h & _ & E). cbn [w w_reg] in E. rewrite E. discriminate.
  - intros n X _. exact (Hst n X).
Qed.
Print Assumptions C81_extra_field.

(** The hypotheses hold for the documents of C64 (a loop that includes a partial), for all data: only the field [l] is read, and in the loop [x] *)
Example C81_nonvacuous : forall data data' name r, agree [lit "l"; lit "x"] data data' -> answers pl0 broken_reg data' name (doc_text broken) r <-> answers pl0 broken_reg data name (doc_text broken) r.
Proof.
  intros data data' name r Ha. destruct (C65_nonvacuous data name) as (H1 & H2 & H3 & H4 & H5 & _).
  apply (C81_once pl0 broken_reg data data' [(lit "p", broken_p)] [lit "each"] [lit "l"; lit "x"] broken); try assumption.
  - exact (standard_discreet _ H2).
  - intros n [<-|[]]. vm_compute. discriminate.
  - intros n [<-|[]] _. exists each_helper. split; vm_compute; reflexivity.
  - apply broken_ok.
  - apply (doc_canon pe0), broken_ok.
  - vm_compute. reflexivity.
  - intros m x E. cbn [assoc] in E. destruct (streq m (lit "p")); [|discriminate E]. injection E as <-. vm_compute. reflexivity.
Qed.
(** the whole of the data can be reached by [this] outside of a block that changes it, by [@root], and by a field not in the list *)
Example C81_reaches : 
  item_within [] [lit "l"] false (ICall false nt false (Call HdThis [] [] [])) = false
  /\ item_within [] [lit "l"] true (ICall false nt false (Call (HdLocal (lit "root")) [(false, SName (lit "x"))] [] [])) = false
  /\ item_within [] [lit "l"] true (show "x") = false
  /\ once reg0 (lit "{{json this}}") (JObj []) <> once reg0 (lit "{{json this}}") (JObj [(lit "x", JNull)])
  /\ once reg0 (lit "{{x}}") (JObj []) <> once reg0 (lit "{{x}}") (JObj [(lit "x", JBool true)])
  /\ once reg0 (lit "{{#each l}}{{@root.x}}{{/each}}") (JObj [(lit "l", JArr [JNull]); (lit "x", JStr (lit "1"))])
     <> once reg0 (lit "{{#each l}}{{@root.x}}{{/each}}") (JObj [(lit "l", JArr [JNull]); (lit "x", JStr (lit "2"))]).
Proof. do 3 (split; [vm_compute; reflexivity|]). split; [|split]; vm_compute; intros X; discriminate X. Qed.

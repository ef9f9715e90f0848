(** * Props_Files: loading templates from files, the file name, and the setters of the registry (C60-C62). *)
From Coq Require Import Lia String Permutation.
From Verif Require Import Str Json Ast ErrInfo Parser Render Helpers Registry Tests Spec_Values Spec_Helpers Spec_Sem Spec_Source Spec_Files StrFacts TermFacts FileFacts
  Props_Parser Props_Render Props_Source Props_Sem.
Open Scope nat_scope. Open Scope list_scope.

(** ** C61: the file name given to the parser is used in error reports only *)
Theorem C61_file_name : forall pl f1 f2 line byte src,
  match template_compile pl (mkOpts f1 line byte) src, template_compile pl (mkOpts f2 line byte) src with
  | AOk t1, AOk t2 => te_src t1 = te_src t2 /\ te_node t1 = te_node t2
  | AErr (XSyntax e1), AErr (XSyntax e2) => se_kind e1 = se_kind e2
  | APanic p1, APanic p2 => p1 = p2
  | _, _ => False
  end.
Proof.
  intros pl f1 f2 line byte src. unfold template_compile. pose proof (compile_file (pl_penv pl) src f1 f2 line byte) as H.
  pose proof (C05_compile_terminates (pl_penv pl) (mkOpts f1 line byte) src) as T1.
  destruct (compile _ (mkOpts f1 line byte) src) as [n1 s1|e1 s1|p1|], (compile _ (mkOpts f2 line byte) src) as [n2 s2|e2 s2|p2|]; cbn in H; try contradiction.
  - destruct H as [-> _]. split; reflexivity.
  - apply H.
  - exact H.
Qed.
(** so templates compiled under different names render the same *)
Theorem C61_renders_the_same : forall pl f1 f2 src t1 t2 fuel r name data,
  registry_parse pl f1 src = AOk t1 -> registry_parse pl f2 src = AOk t2 ->
  registry_render_template fuel pl r name t1 data = registry_render_template fuel pl r name t2 data.
Proof.
  intros pl f1 f2 src t1 t2 fuel r name data H1 H2. pose proof (C61_file_name pl f1 f2 0 0 src) as H. unfold registry_parse in *. rewrite H1, H2 in H.
  unfold registry_render_template, te_tpl. destruct H as [-> ->]. reflexivity.
Qed.
(** the report does name the file *)
Example C61_nonvacuous : (exists t1 t2, registry_parse pl0 (lit "a") (lit "x{{y}}") = AOk t1 /\ registry_parse pl0 (lit "b") (lit "x{{y}}") = AOk t2)
  /\ exists i1 i2, registry_parse pl0 (lit "a") (lit "x{{/y}} ") = AErr (XSyntax (mkSErr SBlockNotOpen i1))
       /\ registry_parse pl0 (lit "b") (lit "x{{/y}} ") = AErr (XSyntax (mkSErr SBlockNotOpen i2)) /\ streq i1 i2 = false.
Proof.
  split.
  - eexists _, _. split; vm_compute; reflexivity.
  - eexists _, _. split; [vm_compute; reflexivity|]. split; [vm_compute; reflexivity|]. vm_compute. reflexivity.
Qed.

(** ** C60: files *)
Lemma parse_cases pl path content : registry_parse pl path content <> AFuel.
Proof. apply (C05_entry_points_terminate pl path content reg0). Qed.
(** [add]: the template of the file under the given name, or nothing at all *)
Theorem C60_add : forall pl read name path r,
  (forall t, file_gives pl read path t ->
     registry_add pl read name path r = (AOk tt, snd (registry_add pl read name path r)) /\ with_templates r (snd (registry_add pl read name path r)) [(name, t)])
  /\ (forall x, file_fails pl read path x -> registry_add pl read name path r = (x, r))
  /\ ((exists t, file_gives pl read path t) \/ (exists x, file_fails pl read path x)).
Proof.
  intros pl read name path r. unfold registry_add, file_gives, file_fails, registry_parse. split; [|split].
  - intros t (content & -> & ->). split; [reflexivity|]. cbn [snd]. split; [|repeat split].
    intros n. unfold registry_get. cbn [rg_templates set_templates]. split.
    + intros H. apply assoc_set_neq. intros ->. apply H. left. reflexivity.
    + intros l1 t' l2 H _. destruct l1 as [|y l1]; [injection H as <- <- _; apply assoc_set_eq|]. injection H as _ H. destruct l1; discriminate H.
  - intros x [(k & -> & ->)|(content & -> & H)]; [reflexivity|]. destruct (template_compile pl (mkOpts path 0 0) content); try contradiction; subst x; reflexivity.
  - destruct (read path) as [content|k]; [|right; exists (AErr (XIo k)); left; eauto].
    destruct (template_compile pl (mkOpts path 0 0) content) as [t|e|p|] eqn:E.
    + left. exists t, content. auto.
    + right. eexists. right. exists content. rewrite E. split; reflexivity.
    + right. eexists. right. exists content. rewrite E. split; reflexivity.
    + right. eexists. right. exists content. rewrite E. split; reflexivity.
Qed.
(** [load]: the name is the path *)
Theorem C60_load : forall pl read path r, registry_load pl read path r = registry_add pl read path path r.
Proof. reflexivity. Qed.
(** the template is the one [insert] would have stored for the content of the file *)
Theorem C60_like_insert : forall pl read name path content r, read path = inl content ->
  match fst (registry_add pl read name path r), fst (registry_insert pl name content r) with
  | AOk _, AOk _ => exists t1 t2, registry_get name (snd (registry_add pl read name path r)) = Some t1
      /\ registry_get name (snd (registry_insert pl name content r)) = Some t2 /\ te_src t1 = content /\ te_src t2 = content /\ te_node t1 = te_node t2
  | AErr (XSyntax e1), AErr (XSyntax e2) => se_kind e1 = se_kind e2
  | APanic p1, APanic p2 => p1 = p2
  | _, _ => False
  end.
Proof.
  intros pl read name path content r Hr. unfold registry_add, registry_insert. rewrite Hr. pose proof (C61_file_name pl path name 0 0 content) as H.
  assert (S : forall f t, template_compile pl (mkOpts f 0 0) content = AOk t -> te_src t = content).
  { intros f t. unfold template_compile. destruct (compile _ _ _); try discriminate. intros X. injection X as <-. reflexivity. }
  pose proof (S path) as S1. pose proof (S name) as S2.
  destruct (template_compile pl (mkOpts path 0 0) content) as [t1|e1|p1|], (template_compile pl (mkOpts name 0 0) content) as [t2|e2|p2|]; cbn [fst snd]; try (destruct e1); try contradiction.
  - exists t1, t2. unfold registry_get. cbn [rg_templates set_templates]. rewrite !assoc_set_eq. repeat split; [apply S1, eq_refl | apply S2, eq_refl | apply H].
  - destruct e2; try contradiction. exact H.
  - exact H.
Qed.
Lemma with_nil r : with_templates r r [].
Proof. split; [|repeat split]. intros name. split; [reflexivity|]. intros [|] t l2 H; discriminate H. Qed.
Lemma with_cons r r1 r2 n t l : with_templates r r1 [(n, t)] -> with_templates r1 r2 l -> with_templates r r2 ((n, t) :: l).
Proof.
  intros (A1 & A2 & A3 & A4 & A5 & A6 & A7) (B1 & B2 & B3 & B4 & B5 & B6 & B7). split; [|repeat split; congruence]. intros name. split.
  - intros H. rewrite (proj1 (B1 name)) by (intros X; apply H; right; exact X). apply (proj1 (A1 name)). intros [X|[]]. apply H. left. exact X.
  - intros l1 t' l2 E H. destruct l1 as [|y l1].
    + injection E as -> -> ->. rewrite (proj1 (B1 name) H). apply (proj2 (A1 name) [] t' []); [reflexivity | intros []].
    + injection E as <- ->. apply (proj2 (B1 name) l1 t' l2); [reflexivity | exact H].
Qed.
(** [read_dir]: exactly the wanted files before the first problem, by stem, in listing order *)
Theorem C60_read_dir : forall pl read ext es r, exists l,
  loads pl read ext es l (fst (registry_read_dir pl read (inl es) ext r))
  /\ with_templates r (snd (registry_read_dir pl read (inl es) ext r)) l.
Proof.
  intros pl read ext es. unfold registry_read_dir. induction es as [|[e|k] es IH]; intros r; cbn [read_dir_go].
  - exists []. split; [constructor | apply with_nil].
  - assert (W : (de_file e && match de_ext e with Some x => streq x ext | None => false end)%bool = true <-> wanted ext e).
    { unfold wanted. rewrite andb_true_iff. destruct (de_ext e) as [x|]; [|split; intros [_ H]; discriminate H]. rewrite streq_eq. split; intros [H1 H2]; split; congruence. }
    set (b := (de_file e && match de_ext e with Some x => streq x ext | None => false end)%bool) in *. destruct b.
    + pose proof (proj1 W eq_refl) as E. clear W. destruct (C60_add pl read (de_stem e) (de_path e) r) as (A & B & [(t & Ht)|(x & Hx)]).
      * destruct (A t Ht) as [E1 E2]. rewrite E1. destruct (IH (snd (registry_add pl read (de_stem e) (de_path e) r))) as (l & L1 & L2).
        exists ((de_stem e, t) :: l). split; [apply loads_take; assumption | eapply with_cons; eassumption].
      * rewrite (B x Hx). exists []. assert (N : forall u, x <> AOk u).
        { intros u ->. destruct Hx as [(k & _ & X)|(c & _ & X)]; [discriminate X|]. destruct (registry_parse _ _ c); try contradiction; discriminate X. }
        destruct x as [u| | |]; [contradiction (N u eq_refl)| | |]; (split; [apply loads_fail; assumption | apply with_nil]).
    + destruct (IH r) as (l & L1 & L2). exists l. split; [|exact L2]. apply loads_skip; [|exact L1]. intros H. apply W in H. discriminate H.
  - exists []. split; [constructor | apply with_nil].
Qed.
Theorem C60_read_dir_unreadable : forall pl read ext kind r, registry_read_dir pl read (inr kind) ext r = (AErr (XIo kind), r).
Proof. reflexivity. Qed.
(** if it succeeds and the stems are distinct, every wanted file is the template of its stem, and nothing else changed *)
Theorem C60_all_loaded : forall pl read ext es r, fst (registry_read_dir pl read (inl es) ext r) = AOk tt ->
  let r' := snd (registry_read_dir pl read (inl es) ext r) in
  (forall e1 e2, In (inl e1) es -> In (inl e2) es -> wanted ext e1 -> wanted ext e2 -> de_stem e1 = de_stem e2 -> de_path e1 = de_path e2) ->
  (forall e, In (inl e) es -> wanted ext e -> exists t, file_gives pl read (de_path e) t /\ registry_get (de_stem e) r' = Some t)
  /\ (forall name, (forall e, In (inl e) es -> wanted ext e -> de_stem e <> name) -> registry_get name r' = registry_get name r).
Proof.
  intros pl read ext es r Hok r' Hd. destruct (C60_read_dir pl read ext es r) as (l & L1 & L2). fold r' in L2. rewrite Hok in L1. clear Hok.
  assert (F : forall n t, In (n, t) l -> exists e, In (inl e) es /\ wanted ext e /\ de_stem e = n /\ file_gives pl read (de_path e) t).
  { clear - L1. remember (AOk tt) as x. induction L1 as [|e es l x Hn H IH|e es t l x Hw Hg H IH|e es x Hw Hf|k es]; intros n t0 Hin; try contradiction.
    - destruct (IH Heqx _ _ Hin) as (e' & I1 & I2). exists e'. split; [right; exact I1 | exact I2].
    - destruct Hin as [Hin|Hin]; [injection Hin as <- <-; exists e; repeat split; try apply Hw; [left; reflexivity | exact Hg]|].
      destruct (IH Heqx _ _ Hin) as (e' & I1 & I2). exists e'. split; [right; exact I1 | exact I2]. }
  assert (G : forall e, In (inl e) es -> wanted ext e -> In (de_stem e) (map fst l)).
  { clear - L1. remember (AOk tt) as x. induction L1 as [|e es l x Hn H IH|e es t l x Hw Hg H IH|e es x Hw Hf|k es]; intros e0 Hin Hw0; try contradiction.
    - destruct Hin as [Hin|Hin]; [injection Hin as <-; contradiction | apply IH; assumption].
    - destruct Hin as [Hin|Hin]; [injection Hin as <-; left; reflexivity | right; apply IH; assumption].
    - subst x. destruct Hf as [(k & _ & X)|(c & _ & X)]; [discriminate X|]. destruct (registry_parse _ _ c); try contradiction; discriminate X.
    - discriminate Heqx. }
  split.
  - intros e Hin Hw. assert (X : exists l1 t l2, l = l1 ++ (de_stem e, t) :: l2 /\ ~ In (de_stem e) (map fst l2)).
    { specialize (G e Hin Hw). clear - G. induction l as [|[n t] l IH]; [contradiction|]. destruct (in_dec (list_eq_dec N.eq_dec) (de_stem e) (map fst l)) as [D|D].
      - destruct (IH D) as (l1 & t' & l2 & -> & X). exists ((n, t) :: l1), t', l2. split; [reflexivity | exact X].
      - destruct G as [G|G]; [|contradiction]. cbn in G. subst n. exists [], t, l. split; [reflexivity | exact D]. }
    destruct X as (l1 & t & l2 & El & Hl2). exists t. split; [|apply (proj2 (proj1 L2 (de_stem e)) l1 t l2); assumption].
    destruct (F (de_stem e) t) as (e' & I1 & I2 & I3 & I4); [rewrite El; apply in_app_iff; right; left; reflexivity|].
    rewrite (Hd e e' Hin I1 Hw I2 (eq_sym I3)). exact I4.
  - intros name Hn. apply (proj1 (proj1 L2 name)). intros H. apply in_map_iff in H. destruct H as ([n t] & <- & H). destruct (F _ _ H) as (e & I1 & I2 & I3 & _). exact (Hn e I1 I2 I3).
Qed.
(** a directory with a template, a file of another extension, a directory, and two files of the same stem *)
Definition disk : str -> str + nat := fun p => if streq p (lit "d/a.html") then inl (lit "A{{x}}") else if streq p (lit "d/b.html") then inl (lit "{{/x}}") else inr 2.
Definition listing : list (dir_entry + nat) :=
  [inl (mkEntry (lit "d/a.html") true (Some (lit "html")) (lit "a")); inl (mkEntry (lit "d/c.md") true (Some (lit "md")) (lit "c"));
   inl (mkEntry (lit "d/s.html") false (Some (lit "html")) (lit "s"))].
Example C60_nonvacuous :
  fst (registry_read_dir pl0 disk (inl listing) (lit "html") reg0) = AOk tt
  /\ registry_render 50 pl0 (snd (registry_read_dir pl0 disk (inl listing) (lit "html") reg0)) (lit "a") (JObj [(lit "x", JBool true)]) = AOk (lit "Atrue")
  /\ registry_get (lit "c") (snd (registry_read_dir pl0 disk (inl listing) (lit "html") reg0)) = None
  /\ fst (registry_read_dir pl0 disk (inl (listing ++ [inl (mkEntry (lit "d/z.html") true (Some (lit "html")) (lit "z"))])) (lit "html") reg0) = AErr (XIo 2)
  /\ match fst (registry_add pl0 disk (lit "b") (lit "d/b.html") reg0) with AErr (XSyntax e) => se_kind e = SBlockNotOpen | _ => False end.
Proof. vm_compute. repeat split; reflexivity. Qed.

(** ** C62: the setters *)
(** registering a helper under a name replaces the one of that name and nothing else; removing it removes exactly it *)
Theorem C62_helpers : forall name h r,
  assoc name (rg_helpers (helper_insert name h r)) = Some h /\ assoc name (rg_helpers (helper_remove name r)) = None
  /\ (forall other, other <> name -> assoc other (rg_helpers (helper_insert name h r)) = assoc other (rg_helpers r)
                                  /\ assoc other (rg_helpers (helper_remove name r)) = assoc other (rg_helpers r))
  /\ forall r', r' = helper_insert name h r \/ r' = helper_remove name r ->
       rg_templates r' = rg_templates r /\ rg_escape r' = rg_escape r /\ rg_strict r' = rg_strict r /\ rg_link r' = rg_link r
       /\ rg_missing r' = rg_missing r /\ rg_block_missing r' = rg_block_missing r.
Proof.
  intros name h r. split; [apply assoc_set_eq|]. split; [apply assoc_del_eq|]. split.
  - intros other H. split; [apply assoc_set_neq, H | apply assoc_del_neq, H].
  - intros r' [->| ->]; repeat split.
Qed.
(** every setting is kept by the setters of the others *)
Theorem C62_settings : forall r f b h t,
  (rg_escape (set_escape f r) = f /\ rg_strict (set_escape f r) = rg_strict r /\ rg_templates (set_escape f r) = rg_templates r /\ rg_helpers (set_escape f r) = rg_helpers r
     /\ rg_link (set_escape f r) = rg_link r /\ rg_missing (set_escape f r) = rg_missing r /\ rg_block_missing (set_escape f r) = rg_block_missing r)
  /\ (rg_strict (set_strict b r) = b /\ rg_escape (set_strict b r) = rg_escape r /\ rg_templates (set_strict b r) = rg_templates r /\ rg_helpers (set_strict b r) = rg_helpers r
     /\ rg_link (set_strict b r) = rg_link r /\ rg_missing (set_strict b r) = rg_missing r /\ rg_block_missing (set_strict b r) = rg_block_missing r)
  /\ (rg_link (set_link h r) = h /\ rg_missing (set_link h r) = rg_missing r /\ rg_block_missing (set_link h r) = rg_block_missing r)
  /\ (rg_missing (set_missing h r) = h /\ rg_link (set_missing h r) = rg_link r /\ rg_block_missing (set_missing h r) = rg_block_missing r)
  /\ (rg_block_missing (set_block_missing h r) = h /\ rg_link (set_block_missing h r) = rg_link r /\ rg_missing (set_block_missing h r) = rg_missing r)
  /\ (forall r', r' = set_link h r \/ r' = set_missing h r \/ r' = set_block_missing h r ->
        rg_escape r' = rg_escape r /\ rg_strict r' = rg_strict r /\ rg_templates r' = rg_templates r /\ rg_helpers r' = rg_helpers r)
  /\ (rg_templates (set_templates t r) = t /\ rg_escape (set_templates t r) = rg_escape r /\ rg_strict (set_templates t r) = rg_strict r).
Proof. intros r f b h t. do 5 (split; [repeat split|]). split; [intros r' [->|[->| ->]]; repeat split|]. repeat split. Qed.
(** the escape function that was set is the one applied to values; with [noop] [{{n}}] is [{{{n}}}] *)
Theorem C62_escape : forall pl reg data n v x f g g', table pl -> name_ok n -> assoc n (rg_helpers reg) = None -> has_field data n v -> shown (pl_fstr pl) v x -> x <> [] -> gap_str g -> gap_str g' ->
  renders pl (set_escape f reg) data (lit "{{" ++ g ++ n ++ g' ++ lit "}}") (f x)
  /\ renders pl (set_escape noop reg) data (lit "{{" ++ g ++ n ++ g' ++ lit "}}") x
  /\ renders pl (set_escape f reg) data (lit "{{{" ++ g ++ n ++ g' ++ lit "}}}") x.
Proof.
  intros pl reg data n v x f g g' Ht Hn Hh Hv Hx Hne Hg Hg'. split; [|split].
  - exact (C19_double_stash_escapes pl (set_escape f reg) data n v x g g' Ht Hn Hh Hv Hx Hne Hg Hg').
  - exact (C19_double_stash_escapes pl (set_escape noop reg) data n v x g g' Ht Hn Hh Hv Hx Hne Hg Hg').
  - exact (C19_triple_stash_verbatim pl (set_escape f reg) data n v x g g' Ht Hn Hh Hv Hx Hg Hg').
Qed.
Example C62_nonvacuous : once (set_escape noop reg0) (lit "{{a}}{{{a}}}") (JObj [(lit "a", JStr (lit "<"))]) = AOk (lit "<<")
  /\ once (set_escape (fun s => s ++ s) reg0) (lit "{{a}}{{{a}}}") (JObj [(lit "a", JStr (lit "<"))]) = AOk (lit "<<<").
Proof. vm_compute. split; reflexivity. Qed.

(** * Props_Values: escaping, truthiness, variables and the value helpers (C18, C24-C27, C33-C37, C51). *)
From Coq Require Import Lia String.
From Verif Require Import Str Json Ast Parser Render Helpers Registry Tests Spec_Values Spec_Helpers
  StrFacts ValueFacts NumFacts LookupFacts BuiltinFacts.
Open Scope nat_scope. Open Scope list_scope.

(** ** C18: the default escape *)
Theorem C18_escape_safe_and_lossless : forall pl s,
  let esc := rg_escape (registry_new pl) in
  safe_html (esc s)
  /\ shows (esc s) s
  /\ (forall t, shows (esc s) t -> t = s)
  /\ ~ In 60%N (esc s) /\ ~ In 62%N (esc s) /\ ~ In 34%N (esc s) /\ ~ In 39%N (esc s)
  /\ (Forall (fun c => ~ special c) s -> esc s = s)
  /\ (forall t, esc (s ++ t) = esc s ++ esc t)
  /\ (forall t, esc s = esc t -> s = t).
Proof.
  intros pl s esc. change esc with html. destruct (safe_no_angle _ (html_safe s)) as (H1 & H2 & H3 & H4).
  repeat split; try assumption.
  - apply html_safe.
  - apply html_shows.
  - intros t Ht. exact (shows_det _ _ _ Ht (html_shows s)).
  - apply html_plain.
  - intros t. apply html_app.
  - apply html_inj.
Qed.
Example C18_nonvacuous : rg_escape (registry_new pl0) (lit "<a href=""x"">'&'</a>")
  = lit "&lt;a href=&quot;x&quot;&gt;&#x27;&amp;&#x27;&lt;/a&gt;".
Proof. reflexivity. Qed.

(** ** C24-C26: variables *)
(** a plain path: a.b.c *)
Theorem C24_innermost_scope_wins : forall en src p st parts,
  pa_absolute p = false -> pa_root p = false -> pa_explicit p = false -> path_is_local p = false -> pa_parents p = 0%N ->
  comp_values src (pa_comps p) = Some parts ->
  looks_up en src p st (visible parts (en_root en) (r_scopes st)).
Proof.
  intros en src p st parts Ha Hr He Hl Hp Hc. eapply mlookup_ok; [exact Ha | exact Hc|]. intros r H w.
  unfold lookup in H. rewrite Ha, Hc, Hr, He, Hl, Hp in H. cbn [N.ltb N.compare] in H. injection H as <-. apply find_in_scopes_spec.
Qed.
Theorem C25_parent_levels : forall en src p st parts,
  pa_absolute p = false -> pa_root p = false -> pa_explicit p = false -> path_is_local p = false -> (0 < pa_parents p)%N ->
  comp_values src (pa_comps p) = Some parts ->
  looks_up en src p st (at_level parts (en_root en) (r_scopes st) (N.to_nat (pa_parents p))).
Proof.
  intros en src p st parts Ha Hr He Hl Hp Hc. eapply mlookup_ok; [exact Ha | exact Hc|]. intros r H w.
  unfold lookup in H. apply N.ltb_lt in Hp. rewrite Ha, Hc, Hr, He, Hl, Hp in H. injection H as <-. unfold at_level.
  destruct (nth_error (r_scopes st) (N.to_nat (pa_parents p))) as [s|] eqn:E.
  - rewrite find_in_scope_spec. split; [intros H; left; exists s; auto|]. intros [(s' & H & Hs)|[H _]]; [congruence|].
    assert (N.to_nat (pa_parents p) < length (r_scopes st)) by (apply nth_error_Some; congruence). lia.
  - destruct (Nat.eqb_spec (N.to_nat (pa_parents p)) (length (r_scopes st))) as [Hn|Hn].
    + rewrite find_parts_spec. split; [intros H; right; auto|]. intros [(s & H & _)|[_ H]]; [discriminate | exact H].
    + split; [discriminate|]. intros [(s & H & _)|[H _]]; [discriminate | contradiction].
Qed.
Theorem C25_too_many_levels : forall en src p st parts,
  pa_absolute p = false -> pa_root p = false -> pa_explicit p = false -> path_is_local p = false ->
  length (r_scopes st) < N.to_nat (pa_parents p) -> comp_values src (pa_comps p) = Some parts ->
  mlookup en src p st = ROk None st.
Proof.
  intros en src p st parts Ha Hr He Hl Hp Hc.
  destruct (C25_parent_levels en src p st parts Ha Hr He Hl ltac:(lia) Hc) as (r & -> & Hw).
  destruct r as [w|]; [|reflexivity]. exfalso. destruct (proj1 (Hw w) eq_refl) as [(s & H & _)|[H _]]; [|lia].
  assert (N.to_nat (pa_parents p) < length (r_scopes st)) by (apply nth_error_Some; congruence). lia.
Qed.
(** @root.a.b: the parts after @root, from the render data *)
Theorem C26_root_path : forall en src p st r parts,
  pa_absolute p = false -> pa_root p = true -> comp_values src (pa_comps p) = Some (r :: parts) ->
  looks_up en src p st (follow (en_root en) parts).
Proof.
  intros en src p st r parts Ha Hr Hc. eapply mlookup_ok; [exact Ha | exact Hc|]. intros x H w.
  unfold lookup in H. rewrite Ha, Hc, Hr in H. injection H as <-. apply find_parts_spec.
Qed.
(** this, this.a.b and ./a.b *)
Theorem C26_this_path : forall en src p st t parts,
  pa_absolute p = false -> pa_root p = false -> pa_explicit p = true -> comp_values src (pa_comps p) = Some (t :: parts) ->
  looks_up en src p st (fun w => exists v, this_is (en_root en) (r_scopes st) v
                                        /\ (parts = [] /\ w = v \/ follow v parts w)).
Proof.
  intros en src p st t parts Ha Hr He Hc. eapply mlookup_ok; [exact Ha | exact Hc|]. intros x H w.
  unfold lookup in H. rewrite Ha, Hc, Hr, He in H.
  assert (L : length (pa_comps p) = S (length parts)).
  { apply comp_values_length in Hc. exact Hc. }
  assert (T : this_is (en_root en) (r_scopes st) (this_value (en_root en) (r_scopes st))) by (apply this_value_spec; reflexivity).
  destruct (length (pa_comps p) =? 1) eqn:E; injection H as <-.
  - apply Nat.eqb_eq in E. assert (parts = []) by (destruct parts; [reflexivity | simpl in L; lia]). subst parts. split.
    + intros H. injection H as <-. eexists. split; [exact T | left; auto].
    + intros (v & Hv & [[_ ->]|Hf]); [|inversion Hf]. apply this_value_spec in Hv. congruence.
  - apply Nat.eqb_neq in E. cbn [tl]. rewrite find_parts_spec. split.
    + intros H. eexists. split; [exact T | right; exact H].
    + intros (v & Hv & [[-> _]|Hf]); [simpl in L; lia|]. apply this_value_spec in Hv. subst v. exact Hf.
Qed.
(** @name *)
Theorem C26_local_path : forall en src p st parts,
  pa_absolute p = false -> pa_root p = false -> pa_explicit p = false -> path_is_local p = true ->
  comp_values src (pa_comps p) = Some parts ->
  looks_up en src p st (fun w => exists s ss, r_scopes st = s :: ss /\ in_locals parts s w).
Proof.
  intros en src p st parts Ha Hr He Hl Hc. eapply mlookup_ok; [exact Ha | exact Hc|]. intros x H w.
  unfold lookup in H. rewrite Ha, Hc, Hr, He, Hl in H. injection H as <-. destruct (r_scopes st) as [|s ss].
  - split; [discriminate | intros (s & ss & H & _); discriminate].
  - assert (F := find_parts_spec parts (JObj (sc_locals s)) w). split.
    + intros H. exists s, ss. split; [reflexivity | apply F, H].
    + intros (s' & ss' & H & Hw). injection H as <- _. apply F, Hw.
Qed.
(** a state with two scopes: a shadowing member, a local, and values further out *)
Definition demo_scopes : list scope :=
  [mkScope (Some (JObj [(lit "a", JStr (lit "inner"))])) [(lit "@index", num_of_nat 3)];
   mkScope (Some (JObj [(lit "a", JStr (lit "outer")); (lit "b", JObj [(lit "c", JBool true)])])) []].
Definition demo_env : env := mkEnv pl0 reg0 (lit "t") (JObj [(lit "a", JStr (lit "data")); (lit "d", JArr [JNull; JNum (PosInt 7)])]) string_writer.
Definition demo_st : rst := up_scopes demo_scopes (r_new []).
Definition demo_eval (s : str) : option (option json) :=
  match evaluate demo_env s demo_st with ROk v _ => Some v | _ => None end.
Example C24_nonvacuous :
  demo_eval (lit "a") = Some (Some (JStr (lit "inner"))) /\ demo_eval (lit "b.c") = Some (Some (JBool true))
  /\ demo_eval (lit "d.[1]") = Some (Some (JNum (PosInt 7))) /\ demo_eval (lit "z") = Some None
  /\ demo_eval (lit "../a") = Some (Some (JStr (lit "outer"))) /\ demo_eval (lit "../../a") = Some (Some (JStr (lit "data")))
  /\ demo_eval (lit "../../../a") = Some None /\ demo_eval (lit "@root.a") = Some (Some (JStr (lit "data")))
  /\ demo_eval (lit "this.a") = Some (Some (JStr (lit "inner"))) /\ demo_eval (lit "@index") = Some (Some (num_of_nat 3)).
Proof. vm_compute. repeat split. Qed.

(** ** C27, C33: truthiness and the logical helpers *)
Lemma with_arity_ok ctx lo hi k n : length (hc_args ctx) = n -> (lo <= N.of_nat n <= hi)%N -> with_arity ctx lo hi k = k.
Proof.
  intros Hn H. unfold with_arity, ctx_arity. rewrite Hn. destruct (N.eqb_spec lo hi) as [->|].
  - replace (N.of_nat n =? hi)%N with true by (symmetry; apply N.eqb_eq; lia). reflexivity.
  - replace (N.of_nat n <? lo)%N with false by (symmetry; apply N.ltb_ge; lia).
    replace (hi <? N.of_nat n)%N with false by (symmetry; apply N.ltb_ge; lia). reflexivity.
Qed.
Lemma with_arity_bad ctx lo hi k : ~ (lo <= N.of_nat (length (hc_args ctx)) <= hi)%N -> with_arity ctx lo hi k = HFail (arity_error (hc_name ctx) lo hi).
Proof.
  intros H. unfold with_arity, ctx_arity, arity_error. destruct (N.eqb_spec lo hi) as [->|].
  - destruct (N.eqb_spec (N.of_nat (length (hc_args ctx))) hi); [lia | reflexivity].
  - destruct (N.ltb_spec (N.of_nat (length (hc_args ctx))) lo); [reflexivity|].
    destruct (N.ltb_spec hi (N.of_nat (length (hc_args ctx)))); [reflexivity | lia].
Qed.
Lemma with_arg_ok ctx i k v : nth_error (hc_args ctx) i = Some v -> with_arg ctx i k = k v.
Proof. intros H. unfold with_arg, ctx_get. rewrite H. reflexivity. Qed.
Ltac args H := rewrite (with_arity_ok _ _ _ _ _ (f_equal (@length json) H)) by (simpl; lia);
  repeat (erewrite with_arg_ok by (rewrite H; reflexivity)).

Theorem C27_truthiness : forall pl h ctx t v, builtin pl (lit "not") h -> hc_args ctx = [v] ->
  (returns h ctx t (Some (JBool true)) <-> falsy v) /\ (returns h ctx t (Some (JBool false)) <-> ~ falsy v).
Proof.
  intros pl h ctx t v Hb Ha. injection Hb as <-.
  assert (R : forall K en st, run K en (not_helper ctx t) st = ROk (Some (JBool (negb (is_truthy v)))) st).
  { intros. unfold not_helper. args Ha. reflexivity. }
  pose proof (truthy_falsy v) as T. unfold returns.
  assert (X : forall b, (forall K en st, run K en (not_helper ctx t) st = ROk (Some (JBool b)) st) <-> negb (is_truthy v) = b).
  { intros b. split; [|intros <-; exact R]. intros H. specialize (H (tie 0) demo_env demo_st). rewrite R in H. congruence. }
  rewrite !X. destruct (is_truthy v); cbn [negb]; rewrite <- T; split; split; congruence.
Qed.
Theorem C27_falsy_values : forall v, is_truthy v = false <->
  v = JNull \/ v = JBool false \/ v = JStr [] \/ v = JNum (PosInt 0) \/ v = JNum (NegInt 0) \/ exists s, v = JNum (Flt (S754_zero s)).
Proof.
  intros v. rewrite truthy_falsy. unfold falsy. split.
  - intros [H|[H|[H|(n & -> & Hn)]]]; auto. destruct n as [n|z|f]; simpl in Hn; [subst; auto 10 | subst; auto 10 |].
    destruct Hn as [s ->]. do 5 right. exists s. reflexivity.
  - intros [H|[H|[H|[H|[H|[s H]]]]]]; auto; do 3 right; eexists; (split; [exact H|]); simpl; auto. exists s. reflexivity.
Qed.
Example C27_nonvacuous : map is_truthy [JNull; JStr []; JNum (Flt (S754_zero true)); JArr []; JObj []; JStr (lit "0"); JNum (Flt S754_nan)]
  = [false; false; false; true; true; true; true].
Proof. reflexivity. Qed.

Theorem C33_and : forall pl h ctx t a b, builtin pl (lit "and") h -> hc_args ctx = [a; b] ->
  exists r, returns h ctx t (Some (JBool r)) /\ (r = true <-> ~ falsy a /\ ~ falsy b).
Proof.
  intros pl h ctx t a b Hb Ha. injection Hb as <-. exists (is_truthy a && is_truthy b). split.
  - intros K en st. unfold and_helper. args Ha. reflexivity.
  - rewrite <- !truthy_falsy. destruct (is_truthy a), (is_truthy b); simpl; intuition congruence.
Qed.
Theorem C33_or : forall pl h ctx t a b, builtin pl (lit "or") h -> hc_args ctx = [a; b] ->
  exists r, returns h ctx t (Some (JBool r)) /\ (r = true <-> ~ falsy a \/ ~ falsy b).
Proof.
  intros pl h ctx t a b Hb Ha. injection Hb as <-. exists (is_truthy a || is_truthy b). split.
  - intros K en st. unfold or_helper. args Ha. reflexivity.
  - rewrite <- !truthy_falsy. destruct (is_truthy a), (is_truthy b); simpl; intuition congruence.
Qed.
Theorem C33_not : forall pl h ctx t a, builtin pl (lit "not") h -> hc_args ctx = [a] ->
  exists r, returns h ctx t (Some (JBool r)) /\ (r = true <-> falsy a).
Proof.
  intros pl h ctx t a Hb Ha. injection Hb as <-. exists (negb (is_truthy a)). split.
  - intros K en st. unfold not_helper. args Ha. reflexivity.
  - rewrite <- truthy_falsy. destruct (is_truthy a); simpl; intuition congruence.
Qed.
Definition demo_ctx (name : str) (args : list json) (ps : list (str * json)) : hctx :=
  mkHctx call_default [] name args ps None None [].
Example C33_nonvacuous : exists h1 h2 h3, builtin pl0 (lit "and") h1 /\ builtin pl0 (lit "or") h2 /\ builtin pl0 (lit "not") h3
  /\ hc_args (demo_ctx (lit "and") [JBool true; JStr []] []) = [JBool true; JStr []].
Proof. do 3 eexists. repeat split. Qed.

(** ** C34: comparison *)
Lemma cmp_returns op ctx t a b : hc_args ctx = [JNum a; JNum b] ->
  returns (cmp_helper op) ctx t (Some (JBool (op (as_f64 a) (as_f64 b)))).
Proof.
  intros Ha K en st. unfold cmp_helper. args Ha. unfold ctx_try_get, ctx_get. rewrite Ha. reflexivity.
Qed.
(** the six comparison helpers, on two numbers, answer consistently with one ordering of the two *)
Definition compares (pl : plat) (ctx : hctx) (t : option tpl) (c : comparison) : Prop :=
  forall name h, builtin pl name h ->
    (name = lit "eq" -> returns h ctx t (Some (JBool (match c with Eq => true | _ => false end))))
    /\ (name = lit "ne" -> returns h ctx t (Some (JBool (match c with Eq => false | _ => true end))))
    /\ (name = lit "lt" -> returns h ctx t (Some (JBool (match c with Lt => true | _ => false end))))
    /\ (name = lit "lte" -> returns h ctx t (Some (JBool (match c with Gt => false | _ => true end))))
    /\ (name = lit "gt" -> returns h ctx t (Some (JBool (match c with Gt => true | _ => false end))))
    /\ (name = lit "gte" -> returns h ctx t (Some (JBool (match c with Lt => false | _ => true end)))).
Lemma compares_sf pl ctx t a b c : hc_args ctx = [JNum a; JNum b] -> SFcompare (as_f64 a) (as_f64 b) = Some c ->
  SFcompare (as_f64 b) (as_f64 a) = Some (CompOpp c) -> compares pl ctx t c.
Proof.
  intros Ha H1 H2 name h Hb.
  repeat split; intros ->; injection Hb as <-; intros K en st; unfold eq_helper, ne_helper, lt_helper, lte_helper, gt_helper, gte_helper; erewrite cmp_returns by exact Ha; cbv beta;
    unfold SFeqb, SFltb, SFleb; rewrite ?H1, ?H2; destruct c; reflexivity.
Qed.
(** exactly one of lt, eq, gt holds; ne, gte, lte are the complements *)
Theorem C34_trichotomy : forall pl ctx t a b, hc_args ctx = [JNum a; JNum b] -> not_nan a -> not_nan b ->
  exists c, compares pl ctx t c.
Proof.
  intros pl ctx t a b Ha Na Nb.
  destruct (SFcompare_total (as_f64 a) (as_f64 b)) as (c & H1 & H2); [apply as_f64_not_nan, Na | apply as_f64_not_nan, Nb|].
  exists c. eapply compares_sf; eassumption.
Qed.
(** ... and it is the order of the exact values, for doubles and for integers of at most 53 bits *)
Theorem C34_exact_order : forall pl ctx t a b, hc_args ctx = [JNum a; JNum b] -> exact_number a -> exact_number b ->
  compares pl ctx t (Z.compare (number_scaled a) (number_scaled b)).
Proof.
  intros pl ctx t a b Ha Ea Eb. destruct (exact_f64 a Ea) as [Fa Va]. destruct (exact_f64 b Eb) as [Fb Vb].
  eapply compares_sf; [exact Ha | rewrite <- Va, <- Vb; apply compare_scaled; assumption|].
  rewrite <- Z.compare_antisym, <- Va, <- Vb. apply compare_scaled; assumption.
Qed.
(** integers of at most 53 bits compare as integers *)
Theorem C34_integers : forall pl ctx t a b, hc_args ctx = [JNum (PosInt a); JNum (PosInt b)] -> (a < 2 ^ 53)%N -> (b < 2 ^ 53)%N ->
  compares pl ctx t (N.compare a b).
Proof.
  intros pl ctx t a b Ha Ea Eb. pose proof (C34_exact_order pl ctx t (PosInt a) (PosInt b) Ha Ea Eb) as H.
  cbn [number_scaled] in H. replace (Z.of_N a * 2 ^ 1074 ?= Z.of_N b * 2 ^ 1074)%Z with (N.compare a b) in H; [exact H|].
  rewrite <- Zmult_compare_compat_r by (apply Z.lt_gt, Z.pow_pos_nonneg; lia). symmetry. apply N2Z.inj_compare.
Qed.
(** without the 53 bit bound the claim is false: 2^53 + 1 equals 2^53 *)
Theorem C34_large_integers_refuted : exists pl h ctx t a b, builtin pl (lit "eq") h /\ hc_args ctx = [JNum (PosInt a); JNum (PosInt b)]
  /\ a <> b /\ returns h ctx t (Some (JBool true)).
Proof.
  exists pl0, eq_helper, (demo_ctx (lit "eq") [JNum (PosInt 9007199254740993); JNum (PosInt 9007199254740992)] []), None,
    9007199254740993%N, 9007199254740992%N.
  split; [reflexivity|]. split; [reflexivity|]. split; [discriminate|]. intros K en st. reflexivity.
Qed.
Example C34_nonvacuous : exact_number (NegInt (-3)) /\ exact_number (PosInt 9007199254740991) /\ exact_number (Flt (f64_of_Z 5))
  /\ (number_scaled (NegInt (-3)) < number_scaled (Flt (f64_of_Z 5)))%Z.
Proof. vm_compute. repeat split. Qed.

(** ** C35: lookup *)
Theorem C35_lookup_partial : forall pl h ctx t target field, builtin pl (lit "lookup") h -> hc_args ctx = [target; JStr field] ->
  (forall w, has_field target field w -> returns h ctx t (Some w))
  /\ ((forall w, ~ has_field target field w) -> rejects h ctx t (ELookupField (hc_name ctx) field)).
Proof.
  intros pl h ctx t target field Hb Ha. injection Hb as <-.
  assert (R : forall K en st, run K en (lookup_helper ctx t) st =
    match find_field target field with Some v => ROk (Some v) st | None => RErr (ELookupField (hc_name ctx) field) st end).
  { intros K en st. unfold lookup_helper. args Ha. unfold ctx_try_get, ctx_get. rewrite Ha. cbn [nth_error].
    unfold ctx_try_value, ctx_assert. cbn [assert_kinds assert_type]. destruct (find_field target field); reflexivity. }
  split.
  - intros w Hw K en st. rewrite R. apply find_field_spec in Hw. rewrite Hw. reflexivity.
  - intros H K en st. rewrite R. destruct (find_field target field) as [w|] eqn:E; [|reflexivity].
    apply find_field_spec in E. exfalso. exact (H w E).
Qed.
Theorem C35_never_panics_refuted : exists pl h ctx t, builtin pl (lit "lookup") h
  /\ hc_args ctx = [JArr [JNull]; JNum (PosInt 0)] /\ panics h ctx t.
Proof.
  exists pl0, lookup_helper, (demo_ctx (lit "lookup") [JArr [JNull]; JNum (PosInt 0)] []), None.
  split; [reflexivity|]. split; [reflexivity|]. intros K en st. eexists. reflexivity.
Qed.
Example C35_nonvacuous : has_field (JArr [JNull; JBool true]) (lit "1") (JBool true) /\ has_field (JObj [(lit "a", JNull); (lit "b", JBool true)]) (lit "b") (JBool true).
Proof. split; apply find_field_spec; reflexivity. Qed.

(** ** C36: json *)
Theorem C36_json_round_trip : forall pl h ctx t v other, builtin pl (lit "json") h -> hc_args ctx = [v] ->
  Forall machine_number (json_numbers v) ->
  (forall f, In (Flt f) (json_numbers v) -> float_round_trip (parse_number other) (pl_fstr pl) f) ->
  exists text fuel, returns h ctx t (Some (JStr text)) /\ read_json (parse_number other) fuel text = Some (v, []).
Proof.
  intros pl h ctx t v other Hb Ha Hm Hf. injection Hb as <-. pose proof (numbers_ok other (pl_fstr pl) v Hm Hf) as Ho.
  set (pretty := is_truthy (match ctx_param ctx (lit "pretty") with Some v => v | None => JBool false end)).
  set (text := if pretty then to_pretty (pl_fstr pl) 0 v else to_string (pl_fstr pl) v).
  assert (P : prints (parse_number other) (pl_fstr pl) v text).
  { subst text. destruct pretty; [apply to_pretty_prints, Ho | apply to_string_prints, Ho]. }
  destruct (proj1 (prints_reads (parse_number other) (pl_fstr pl)) v text P) as [n Hn].
  exists text, n. split.
  - intros K en st. unfold json_helper. args Ha. reflexivity.
  - specialize (Hn n [] (le_n n) I). rewrite app_nil_r in Hn. exact Hn.
Qed.
Example C36_nonvacuous : exists h, builtin pl0 (lit "json") h
  /\ returns h (demo_ctx (lit "json") [JObj [(lit "a", JArr [JNum (PosInt 1); JNum (NegInt (-2))]); (lit "q""", JStr (lit "x\y"))]] []) None
       (Some (JStr (lit "{""a"":[1,-2],""q\"""":""x\\y""}")))
  /\ returns h (demo_ctx (lit "json") [JArr [JNum (PosInt 1); JObj []]] [(lit "pretty", JBool true)]) None
       (Some (JStr (lit "[" ++ [10%N] ++ lit "  1," ++ [10%N] ++ lit "  {}" ++ [10%N] ++ lit "]"))).
Proof. eexists. split; [reflexivity|]. split; intros K en st; reflexivity. Qed.

(** ** C37: log *)
Theorem C37_log_writes_nothing : forall pl h ctx t K en st, builtin pl (lit "log") h ->
  run K en (h ctx t) st = ROk None st
  \/ (hc_args ctx = [] /\ exists e, run K en (h ctx t) st = RErr e st)
  \/ (exists v, ctx_param ctx (lit "level") = Some v /\ (forall s, v <> JStr s) /\ exists p, run K en (h ctx t) st = RPanic p)
  \/ (18446744073709551615 < N.of_nat (length (hc_args ctx)))%N.
Proof.
  intros pl h ctx t K en st Hb. injection Hb as <-. unfold log_helper.
  destruct (N.ltb_spec 18446744073709551615 (N.of_nat (length (hc_args ctx)))) as [Hl|Hl]; [right; right; right; exact Hl|].
  destruct (hc_args ctx) as [|a l] eqn:Ea.
  - right; left. split; [reflexivity|]. rewrite with_arity_bad by (rewrite Ea; simpl; lia). eexists. reflexivity.
  - rewrite (with_arity_ok _ _ _ _ (S (length l))) by (rewrite ?Ea; simpl in *; lia).
    destruct (ctx_param ctx (lit "level")) as [v|] eqn:Ev; [|left; rewrite run_log; reflexivity].
    destruct v; try (left; rewrite run_log; reflexivity); right; right; left; eexists; (split; [reflexivity|]); (split; [intros s; discriminate|]); eexists; reflexivity.
Qed.
Theorem C37_level_panics_refuted : exists pl h ctx t, builtin pl (lit "log") h /\ ctx_param ctx (lit "level") = Some (JNum (PosInt 1)) /\ panics h ctx t.
Proof.
  exists pl0, (log_helper (pl_fstr pl0)), (demo_ctx (lit "log") [JStr (lit "x")] [(lit "level", JNum (PosInt 1))]), None.
  split; [reflexivity|]. split; [reflexivity|]. intros K en st. eexists. reflexivity.
Qed.
Example C37_nonvacuous : exists h, builtin pl0 (lit "log") h
  /\ returns h (demo_ctx (lit "log") [JStr (lit "x")] [(lit "level", JStr (lit "warn"))]) None None.
Proof. eexists. split; [reflexivity|]. intros K en st. reflexivity. Qed.

Lemma split_joined : forall s, joined [10%N] (split_lines s) s /\ Forall (fun l => ~ In 10%N l) (split_lines s).
Proof.
  induction s as [|c s [J F]]; [split; [constructor|constructor; [intros []|constructor]]|]. cbn [split_lines].
  destruct (N.eqb_spec c 10) as [->|Hc].
  - split; [apply (joined_more [10%N] [] _ s J)|]. constructor; [intros []|exact F].
  - destruct (split_lines s) as [|l ls]; [inversion J|]. inversion F as [|l' ls' Hl Hls E1]; subst. split.
    + inversion J as [x E1 E2|x xs s' J' E1 E2]; subst; [constructor|]. apply (joined_more [10%N] (c :: l) ls s' J').
    + constructor; [intros [E|E]; [congruence|exact (Hl E)]|exact Hls].
Qed.
Lemma join_joined sep x xs : joined sep (x :: xs) (join sep (x :: xs)).
Proof. revert x. induction xs as [|y xs IH]; intros x; [constructor|]. exact (joined_more sep x (y :: xs) _ (IH y)). Qed.
Lemma level_named_of s : level_named s (level_of s).
Proof.
  unfold level_named, level_of.
  destruct (streq s (lit "error")) eqn:E1; [apply streq_eq in E1; auto|]. destruct (streq s (lit "debug")) eqn:E2; [apply streq_eq in E2; auto|].
  destruct (streq s (lit "warn")) eqn:E3; [apply streq_eq in E3; auto|]. destruct (streq s (lit "trace")) eqn:E4; [apply streq_eq in E4; do 3 right; left; auto|].
  right; right; right; right. split; [|reflexivity]. intros [H|[H|[H|[H|[]]]]]; subst s; rewrite streq_refl in *; discriminate.
Qed.
Lemma logs_lines lv v : forall ls, logs (map (pair lv) ls) v (log_lines lv ls (HRet v)).
Proof. induction ls as [|l ls IH]; [reflexivity|]. exists (log_lines lv ls (HRet v)). split; [reflexivity|exact IH]. Qed.
Lemma logged_unquote fstr v : logged_as fstr v (unquote fstr v).
Proof. destruct v; try (apply logged_json; intros ?; discriminate). apply logged_text. Qed.
(** One record for each line of the arguments joined by spaces, all at the level asked for. *)
Theorem C37_records : forall pl h ctx t name, builtin pl (lit "log") h -> hc_args ctx <> [] -> (N.of_nat (length (hc_args ctx)) < 2 ^ 64)%N ->
  (ctx_param ctx (lit "level") = Some (JStr name) \/ (ctx_param ctx (lit "level") = None /\ name = lit "info")) ->
  exists lv texts message lines, level_named name lv /\ Forall2 (logged_as (pl_fstr pl)) (hc_args ctx) texts /\ joined (lit " ") texts message
  /\ joined [10%N] lines message /\ Forall (fun l => ~ In 10%N l) lines /\ logs (map (pair lv) lines) None (h ctx t).
Proof.
  intros pl h ctx t name Hb Ha Hl Hn. injection Hb as <-. set (texts := map (unquote (pl_fstr pl)) (hc_args ctx)). set (message := join (lit " ") texts).
  exists (level_of name), texts, message, (split_lines message). destruct (split_joined message) as [J F].
  split; [apply level_named_of|]. split; [unfold texts; clear; induction (hc_args ctx); constructor; [apply logged_unquote|assumption]|].
  split; [unfold message, texts; destruct (hc_args ctx) as [|a l]; [contradiction|apply join_joined]|]. split; [exact J|]. split; [exact F|].
  unfold log_helper. rewrite (with_arity_ok _ _ _ _ (length (hc_args ctx))) by (destruct (hc_args ctx); [contradiction|]; simpl in *; lia).
  destruct Hn as [Hn|[Hn ->]]; rewrite Hn; apply logs_lines.
Qed.
(** The lines of a message are determined by it. *)
Theorem C37_lines_unique : forall a b s, joined [10%N] a s -> joined [10%N] b s ->
  Forall (fun l => ~ In 10%N l) a -> Forall (fun l => ~ In 10%N l) b -> a = b.
Proof.
  assert (X : forall (x y r t : str), ~ In 10%N x -> ~ In 10%N y -> x ++ [10%N] ++ r = y ++ [10%N] ++ t -> x = y /\ r = t).
  { induction x as [|c x IH]; intros y r t Hx Hy E; destruct y as [|d y]; cbn in E.
    - injection E as ->. auto.
    - injection E as <- E. exfalso. apply Hy. left; reflexivity.
    - injection E as -> E. exfalso. apply Hx. left; reflexivity.
    - injection E as -> E. destruct (IH y r t) as [-> ->]; auto; intros H; [apply Hx|apply Hy]; right; exact H. }
  intros a b s Ha. revert b. induction Ha as [x|x xs s Hx IH]; intros b Hb Fa Fb; inversion Fa as [|? ? F1 F2]; subst.
  - inversion Hb as [y E1 E2|y ys t Hy E1 E2]; subst; [reflexivity|]. exfalso. apply F1. apply in_app_iff. right. left. reflexivity.
  - inversion Hb as [y E1 E2|y ys t Hy E1 E2]; subst; inversion Fb as [|? ? G1 G2]; subst.
    + exfalso. apply G1. apply in_app_iff. right. left. reflexivity.
    + destruct (X y x t s G1 F1 E2) as [-> ->]. f_equal. apply IH; assumption.
Qed.
Example C37_records_nonvacuous : exists h, builtin pl0 (lit "log") h
  /\ logs [(LvWarn, lit "a"); (LvWarn, lit "b [1,true]")] None
          (h (demo_ctx (lit "log") [JStr (lit "a" ++ [10%N] ++ lit "b"); JArr [JNum (PosInt 1); JBool true]] [(lit "level", JStr (lit "warn"))]) None).
Proof. eexists. split; [reflexivity|]. eexists. split; [vm_compute; reflexivity|]. eexists. split; reflexivity. Qed.

(** ** C51: argument assertions *)
Theorem C51_arity : forall pl name lo hi h ctx t, In (name, lo, hi) arities -> builtin pl name h ->
  ~ (lo <= N.of_nat (length (hc_args ctx)) <= hi)%N -> rejects h ctx t (arity_error (hc_name ctx) lo hi).
Proof.
  intros pl name lo hi h ctx t Hi Hb Hn K en st. simpl in Hi.
  repeat destruct Hi as [Hi|Hi]; try contradiction; injection Hi as <- <- <-; injection Hb as <-;
    unfold if_helper, unless_helper, with_helper, each_helper, not_helper, json_helper, and_helper, or_helper, eq_helper, ne_helper,
      gt_helper, gte_helper, lt_helper, lte_helper, cmp_helper, lookup_helper, log_helper; rewrite with_arity_bad by exact Hn; reflexivity.
Qed.
Theorem C51_builtins_listed : forall pl name h, builtin pl name h -> exists lo hi, In (name, lo, hi) arities.
Proof.
  intros pl name h H. unfold builtin in H. apply assoc_spec in H. destruct H as (pre & post & E & _).
  assert (I : In (name, h) (rg_helpers (registry_new pl))) by (rewrite E; apply in_or_app; right; left; reflexivity).
  assert (X : forall n, In n (map fst (rg_helpers (registry_new pl))) -> exists lo hi, In (n, lo, hi) arities).
  { intros n Hn. cbn [registry_new rg_helpers builtins map fst] in Hn.
    repeat destruct Hn as [<-|Hn]; try contradiction; do 2 eexists; unfold arities; simpl; tauto. }
  apply X. change name with (fst (name, h)). apply in_map, I.
Qed.
Theorem C51_numeric_operands : forall pl name h ctx t a b, In name [lit "eq"; lit "ne"; lit "gt"; lit "gte"; lit "lt"; lit "lte"] ->
  builtin pl name h -> hc_args ctx = [a; b] ->
  (kind_name a <> lit "number" -> rejects h ctx t (ETypeAssert (hc_name ctx) (lit "number") (kind_name a)))
  /\ (kind_name a = lit "number" -> kind_name b <> lit "number" -> rejects h ctx t (ETypeAssert (hc_name ctx) (lit "number") (kind_name b))).
Proof.
  intros pl name h ctx t a b Hi Hb Ha.
  assert (X : exists op, h = cmp_helper op).
  { simpl in Hi. repeat destruct Hi as [<-|Hi]; try contradiction; injection Hb as <-; eexists; reflexivity. }
  destruct X as [op ->]. split.
  - intros Hk K en st. unfold cmp_helper. args Ha. unfold ctx_try_get, ctx_get. rewrite Ha. cbn [nth_error].
    destruct a; try reflexivity. exfalso. apply Hk. reflexivity.
  - intros Hk Hk' K en st. unfold cmp_helper. args Ha. unfold ctx_try_get, ctx_get. rewrite Ha. cbn [nth_error].
    destruct a; try discriminate Hk. destruct b; try reflexivity. exfalso. apply Hk'. reflexivity.
Qed.
(** context.assert with one kind *)
Theorem C51_assert_one_kind_partial : forall ctx v k,
  (kind_name v = type_str k -> ctx_assert ctx v [k] = HOk tt)
  /\ (kind_name v <> type_str k -> ctx_assert ctx v [k] = HErr (ETypeAssert (hc_name ctx) (type_str k) (kind_name v))).
Proof. intros ctx v k. destruct v, k; (split; [intros H; try discriminate H; reflexivity | intros H; try reflexivity; exfalso; apply H; reflexivity]). Qed.
(** with several kinds it demands all of them at once *)
(** what the code does with several kinds: the value must be of every one of them, and the first kind it is not is named *)
Theorem C51_assert_all_kinds_partial : forall ctx v kinds,
  (ctx_assert ctx v kinds = HOk tt <-> forall k, In k kinds -> type_str k = kind_name v)
  /\ (forall pre k post, kinds = pre ++ k :: post -> (forall x, In x pre -> type_str x = kind_name v) -> type_str k <> kind_name v ->
        ctx_assert ctx v kinds = HErr (ETypeAssert (hc_name ctx) (type_str k) (kind_name v))).
Proof.
  intros ctx v.
  assert (B : forall pre k post, (forall x, In x pre -> type_str x = kind_name v) -> type_str k <> kind_name v ->
      ctx_assert ctx v (pre ++ k :: post) = HErr (ETypeAssert (hc_name ctx) (type_str k) (kind_name v))).
  { induction pre as [|x pre IH]; intros k post Hp Hk.
    - destruct v, k; try reflexivity; exfalso; apply Hk; reflexivity.
    - rewrite <- (IH k post) by (try exact Hk; intros y Hy; apply Hp; right; exact Hy).
      assert (Hx := Hp x (or_introl eq_refl)). destruct v, x; try discriminate Hx; reflexivity. }
  intros kinds. split.
  - split.
    + intros H k Hk. destruct (list_eq_dec N.eq_dec (type_str k) (kind_name v)) as [E|E]; [exact E|].
      exfalso. revert H Hk. induction kinds as [|x l IH]; intros H Hk; [destruct Hk|].
      destruct (list_eq_dec N.eq_dec (type_str x) (kind_name v)) as [Ex|Ex].
      * destruct Hk as [<-|Hk]; [exact (E Ex)|]. apply IH; [|exact Hk]. rewrite <- H. destruct v, x; try discriminate Ex; reflexivity.
      * change (ctx_assert ctx v ([] ++ x :: l) = HOk tt) in H. rewrite (B [] x l) in H by (try exact Ex; intros ? []). discriminate H.
    + induction kinds as [|x l IH]; intros H; [reflexivity|].
      rewrite <- (IH (fun k Hk => H k (or_intror Hk))). assert (Hx := H x (or_introl eq_refl)). destruct v, x; try discriminate Hx; reflexivity.
  - intros pre k post -> Hp Hk. apply B; assumption.
Qed.
Example C51_all_kinds_nonvacuous : forall ctx, ctx_assert ctx (JStr []) [TyString; TyString; TyNumber] = HErr (ETypeAssert (hc_name ctx) (lit "number") (lit "string")).
Proof. intros ctx. apply (proj2 (C51_assert_all_kinds_partial ctx (JStr []) _) [TyString; TyString] TyNumber []); [reflexivity | | discriminate]. intros x [<-|[<-|[]]]; reflexivity. Qed.
Theorem C51_assert_any_kind_refuted : forall ctx, exists v kinds, In (kind_name v) (map type_str kinds) /\ ctx_assert ctx v kinds <> HOk tt.
Proof. intros ctx. exists (JStr []), [TyString; TyNumber]. split; [left; reflexivity | discriminate]. Qed.
Example C51_nonvacuous : exists h, builtin pl0 (lit "each") h /\ In (lit "each", 1%N, 1%N) arities
  /\ ~ (1 <= N.of_nat (length (hc_args (demo_ctx (lit "each") [] []))) <= 1)%N.
Proof. eexists. split; [reflexivity|]. split; [unfold arities; simpl; tauto | simpl; lia]. Qed.

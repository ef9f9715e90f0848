(** * OffsetFacts: the line and byte offsets given to the parser are only used in line numbers and error reports (C77). *)
From Coq Require Import Lia String.
From Verif Require Import Str Lexer Json Ast ErrInfo Parser CallFacts ArgFacts BlockFacts DocFacts Spec_Offset.
Open Scope nat_scope. Open Scope list_scope.

Section Offset.
Variables (pe : penv) (src file : str) (k : nat) (B : Prop).
Let cx := mkPctx pe src file.
(** the states: [B] says that the bytes agree *)
Inductive below : pst -> pst -> Prop := below_intro toks line b1 b2 : (B -> b1 = b2) -> below (mkPst toks line b1) (mkPst toks (line + k) b2).
Definition moved {S A} (R : S -> S -> Prop) (f : A -> A) (m1 m2 : pres S A) : Prop :=
  match m1, m2 with
  | POk a s, POk b t => b = f a /\ R s t
  | PErr e s, PErr g t => se_kind e = se_kind g /\ R s t /\ (B -> lower_error (pe_width pe) file src k e g)
  | PPanic p, PPanic q => p = q
  | PErr _ _, PPanic PanErrorInfo | PPanic PanErrorInfo, PErr _ _ => ~ B
  | PFuel, PFuel => True
  | _, _ => False
  end.
Lemma moved_bind {S A A'} (R : S -> S -> Prop) (f : A -> A) (g : A' -> A') (m1 m2 : pres S A) (f1 f2 : A -> S -> pres S A') :
  moved R f m1 m2 -> (forall a s t, R s t -> moved R g (f1 a s) (f2 (f a) t)) -> moved R g (pbind m1 f1) (pbind m2 f2).
Proof.
  intros H Hf. destruct m1, m2; cbn [pbind moved] in *; try contradiction; try exact H; try (destruct p; try contradiction; exact H).
  destruct H as [-> H]. now apply Hf.
Qed.
Lemma moved_perr_n {A} (f : A -> A) e notes s t : below s t -> moved below f (perr_n cx e notes s) (perr_n cx e notes t).
Proof.
  intros H. unfold perr_n. cbn [px_env px_file px_src cx]. pose proof H as Hst. destruct H as [toks line b1 b2 Hb]. cbn [p_line p_byte].
  destruct (err_info _ _ _ line b1 notes) as [i|] eqn:E1, (err_info _ _ _ (line + k) b2 notes) as [j|] eqn:E2; cbn [moved se_kind se_info].
  - split; [reflexivity|]. split; [exact Hst|]. intros HB. specialize (Hb HB). subst b2. exists line, b1, notes. now split.
  - intros HB. specialize (Hb HB). subst b2. unfold err_info in E1, E2. destruct (find_prev src b1); [|discriminate]. destruct (find_next _ _ _); [|discriminate].
    destruct (slice _ _ _); [|discriminate]. cbv zeta in E1, E2. destruct (slice _ _ _); discriminate.
  - intros HB. specialize (Hb HB). subst b2. unfold err_info in E1, E2. destruct (find_prev src b1); [|discriminate]. destruct (find_next _ _ _); [|discriminate].
    destruct (slice _ _ _); [|discriminate]. cbv zeta in E1, E2. destruct (slice _ _ _); discriminate.
  - reflexivity.
Qed.
Lemma moved_perr {A} (f : A -> A) e s t : below s t -> moved below f (perr cx e s) (perr cx e t).
Proof. apply moved_perr_n. Qed.
Lemma moved_ok {A} (f : A -> A) a b s t : b = f a -> below s t -> moved below f (POk a s) (POk b t).
Proof. now split. Qed.
Lemma moved_pslice {A} (f : A -> A) o s t (g1 g2 : str -> pres pst A) : (forall x, moved below f (g1 x) (g2 x)) -> moved below f (pslice o s g1) (pslice o t g2).
Proof. intros H. destruct o; [apply H|reflexivity]. Qed.
Lemma below_set b s t : below s t -> below (set_byte b s) (set_byte b t).
Proof. intros []. unfold set_byte. cbn. now constructor. Qed.
Lemma below_inc s t : below s t -> below (inc_line s) (inc_line t).
Proof. intros []. unfold inc_line. cbn. now apply below_intro. Qed.
Lemma below_count x s t : below s t -> below (count_line x s) (count_line x t).
Proof. intros H. destruct x; try exact H. now apply below_inc. Qed.
Lemma below_next s t : below s t -> fst (pnext t) = fst (pnext s) /\ below (snd (pnext s)) (snd (pnext t)).
Proof. intros H. pose proof H as H'. destruct H as [[|u us] line b1 b2 Hb]; cbn; split; try reflexivity; [exact H'|now constructor]. Qed.
Lemma below_range s t : below s t -> line_range t = lower k (line_range s).
Proof. intros []. unfold line_range, lower. cbn. f_equal. lia. Qed.
Lemma below_toks s t : below s t -> p_toks t = p_toks s.
Proof. now intros []. Qed.
Lemma below_line s t : below s t -> p_line t = p_line s + k.
Proof. now intros []. Qed.
Lemma below_tail s t ts : below s t -> below (mkPst ts (p_line s) (p_byte s)) (mkPst ts (p_line t) (p_byte t)).
Proof. intros []. cbn. now constructor. Qed.

(** ** Paths *)
Lemma string_go_off ty : forall toks start stop n d line b1 b2, (B -> b1 = b2) ->
  moved below (fun x => x) (string_go cx ty start stop n d toks line b1) (string_go cx ty start stop n d toks (line + k) b2).
Proof.
  induction toks as [|t ts IH]; intros start stop n d line b1 b2 Hb; cbn [string_go]; [apply moved_perr; now constructor|].
  destruct (lit_token ty (t_kind t)) as [[]|]; try (apply moved_perr; now constructor); try (now apply IH); try (apply moved_ok; [reflexivity|now constructor]).
Qed.
Lemma string_parse_off ty cur s t : below s t -> moved below (fun x => x) (string_parse cx ty cur s) (string_parse cx ty cur t).
Proof. intros []. unfold string_parse. cbn [p_toks p_line p_byte]. now apply string_go_off. Qed.
Lemma string_literal_off ty cur s t : below s t -> moved below (fun x => x) (string_literal cx ty cur s) (string_literal cx ty cur t).
Proof.
  intros H. unfold string_literal. eapply moved_bind; [apply string_parse_off, H|]. intros [sp fl] s' t' H'. apply moved_pslice. intros x. now apply moved_ok.
Qed.
Lemma to_component_off q sp raw s t : below s t -> moved below (fun x => x) (to_component cx q sp raw s) (to_component cx q sp raw t).
Proof.
  intros H. unfold to_component. cbv zeta. assert (Hm : forall v, moved below (fun x => x)
    (match comp_kind_of q with Some kind => POk (mkComp kind sp v) s | None => perr cx SComponentType s end)
    (match comp_kind_of q with Some kind => POk (mkComp kind sp v) t | None => perr cx SComponentType t end)).
  { intros v. destruct (comp_kind_of q); [now apply moved_ok|now apply moved_perr]. }
  destruct raw as [r|]; [|apply Hm]. destruct (has_escapes r); [|apply Hm]. apply moved_pslice. intros x. apply Hm.
Qed.
Definition lp (r : path * option token) : path * option token := (lower_path k (fst r), snd r).
Lemma components_off fuel : forall p w s t, below s t -> moved below lp (components fuel cx p w s) (components fuel cx (lower_path k p) w t).
Proof.
  induction fuel as [|fuel IH]; intros p w s t H; [exact I|]. rewrite !components_eq, (below_toks _ _ H). destruct (p_toks s) as [|u us] eqn:E; [now apply moved_ok|].
  cbv zeta. pose proof (below_tail _ _ us H) as H'. destruct (is_newline (t_kind u)).
  { destruct (below_next _ _ (below_inc _ _ H')) as [E1 H1]. apply moved_ok; [|exact H1]. unfold lp. cbn [fst snd]. now rewrite E1. }
  destruct (t_kind u) as [q|q|q|q|q|q|q|q|q]; try (now apply moved_ok). apply (below_set (t_start u)) in H'. destruct (comp_action q) as [|e|].
  - now apply moved_ok.
  - now apply moved_perr.
  - unfold comp_tail. apply (moved_bind below (fun x => x)).
    + destruct (lit_of_param q); [|now apply moved_ok]. eapply moved_bind; [apply string_parse_off, H'|]. intros a s1 t1 H1. now apply moved_ok.
    + intros [sp raw] s1 t1 H1. destruct q; try (destruct w; [apply moved_perr; now apply below_set|eapply moved_bind; [apply to_component_off, H1|intros c s2 t2 H2; now apply (IH (path_add c (path_set_end (t_end u) p)))]]).
      destruct w; [now apply (IH (path_set_end (t_end u) p))|apply moved_perr; now apply below_set].
Qed.
Definition lop (r : option path * option token) : option path * option token := (option_map (lower_path k) (fst r), snd r).
Lemma path_first_off p q t toks line : moved below lop (path_first cx p q t toks line) (path_first cx (lower_path k p) q t toks (line + k)).
Proof.
  unfold path_first. cbv zeta. eapply moved_bind; [apply to_component_off; now constructor|]. intros c s1 t1 H1. destruct (comp_is_root (px_src cx) c) as [root|]; [|reflexivity].
  cbv zeta. change (path_is_empty (path_set_end (t_end t) (lower_path k p))) with (path_is_empty (path_set_end (t_end t) p)).
  set (p1 := if path_is_empty (path_set_end (t_end t) p) && root then path_set_root true (path_set_end (t_end t) p) else path_set_end (t_end t) p).
  assert (E1 : (if path_is_empty (path_set_end (t_end t) p) && root then path_set_root true (path_set_end (t_end t) (lower_path k p)) else path_set_end (t_end t) (lower_path k p)) = lower_path k p1)
    by (unfold p1; destruct (_ && root); reflexivity).
  rewrite E1. set (p2 := if comp_is_explicit c then path_set_explicit true p1 else p1).
  assert (E2 : (if comp_is_explicit c then path_set_explicit true (lower_path k p1) else lower_path k p1) = lower_path k p2) by (unfold p2; destruct (comp_is_explicit c); reflexivity).
  rewrite E2. change (pa_parents (lower_path k p2)) with (pa_parents p2). destruct (comp_is_local c && _); [now apply moved_perr|]. destruct (comp_is_explicit c && _); [now apply moved_perr|].
  eapply moved_bind; [exact (components_off _ (path_add c p2) _ _ _ H1)|]. intros [p3 n] s3 t3 H3. unfold lp. cbn [fst snd]. change (path_is_empty (lower_path k p3)) with (path_is_empty p3).
  destruct (path_is_empty p3); [now apply moved_perr|now apply moved_ok].
Qed.
Lemma path_loop_off : forall toks p next line b1 b2, (B -> b1 = b2) -> moved below lop (path_loop cx p next toks line b1) (path_loop cx (lower_path k p) next toks (line + k) b2).
Proof.
  induction toks as [|t' ts IH]; intros p next line b1 b2 Hb; rewrite !path_loop_eq; destruct next as [t|]; try (apply moved_ok; [reflexivity|now constructor]);
    destruct (t_kind t) as [q|q|q|q|q|q|q|q|q]; try (apply moved_perr; now constructor); destruct (is_path_component q); try apply path_first_off.
  - apply moved_ok; [reflexivity|now constructor].
  - now apply IH.
Qed.
Lemma new_path sp s t : below s t -> path_new sp (line_range t) = lower_path k (path_new sp (line_range s)).
Proof. intros H. rewrite (below_range _ _ H). unfold lower_path, path_new, line_range, lower. cbn. now rewrite (Nat.add_comm (p_line s) 1). Qed.
Lemma path_parse_off q u s t : below s t -> moved below lop (path_parse cx q u s) (path_parse cx q u t).
Proof.
  intros H. unfold path_parse. cbv zeta. rewrite (new_path _ _ _ H). set (p := path_new (tspan u) (line_range s)). apply moved_pslice. intros initial.
  assert (Hd : moved below lop (path_loop cx p (Some u) (p_toks s) (p_line s) (p_byte s)) (path_loop cx (lower_path k p) (Some u) (p_toks t) (p_line t) (p_byte t))).
  { destruct H as [toks line b1 b2 Hb]. cbn [p_toks p_line p_byte]. now apply path_loop_off. }
  destruct q; try exact Hd.
  - destruct H as [toks line b1 b2 Hb]. cbn [p_toks p_line p_byte]. destruct (parents_go _ _ _) as [[[n next] ts]|]; [|reflexivity].
    now apply (path_loop_off ts (path_set_parents n p)).
  - destruct (streq initial _); [|now apply moved_perr]. destruct H as [[|v vs] line b1 b2 Hb]; cbn [pnext p_toks p_line p_byte].
    + now apply (path_loop_off [] (path_set_absolute true p)).
    + now apply (path_loop_off vs (path_set_absolute true p)).
Qed.
Lemma json_literal_off q u s t : below s t -> moved below (fun x => x) (json_literal cx q u s) (json_literal cx q u t).
Proof.
  intros H. unfold json_literal. assert (Hl : forall ty, moved below (fun x => x)
    (pbind (string_literal cx ty (tspan u) s) (fun r st => POk (fst r, (t_start u, snd (snd r) + 1)) st)) (pbind (string_literal cx ty (tspan u) t) (fun r st => POk (fst r, (t_start u, snd (snd r) + 1)) st))).
  { intros ty. eapply moved_bind; [apply string_literal_off, H|]. intros a s1 t1 H1. now apply moved_ok. }
  destruct q; cbn [lit_of_param]; try apply Hl; try (now apply moved_perr); try (now apply moved_ok).
  apply moved_pslice. intros x. destruct (parse_number _ x); [now apply moved_ok|reflexivity].
Qed.
(** ** Calls *)
Definition lc (r : call * option token) : call * option token := (lower_call k (fst r), snd r).
Definition lv (r : param * option token) : param * option token := (lower_param k (fst r), snd r).
Lemma new_call o s t : below s t -> call_new o (line_range t) = lower_call k (call_new o (line_range s)).
Proof. intros H. now rewrite (below_range _ _ H). Qed.
Lemma exit_call sp c : call_exit sp (lower_call k c) = lower_call k (call_exit sp c).
Proof. now destruct c. Qed.
Lemma end_call s t c : below s t -> call_lines_end (p_line t) (lower_call k c) = lower_call k (call_lines_end (p_line s) c).
Proof. intros []. destruct c. cbn. f_equal. unfold lower. cbn. f_equal. lia. Qed.
Lemma set_target_call x c : call_set_target (lower_target k x) (lower_call k c) = lower_call k (call_set_target x c).
Proof. now destruct c. Qed.
Lemma add_arg_call v c : call_add_argument (lower_param k v) (lower_call k c) = lower_call k (call_add_argument v c).
Proof. destruct c. cbn. now rewrite map_app. Qed.
Lemma add_param_call x v c : call_add_parameter x (lower_param k v) (lower_call k c) = lower_call k (call_add_parameter x v c).
Proof.
  destruct c as [p q o cl t a h l]. cbn. f_equal. clear. induction h as [|[y w] h IH]; [reflexivity|]. cbn. destruct (streq x y); cbn; [reflexivity|]. now rewrite IH.
Qed.
Lemma closed_call c : call_is_closed (lower_call k c) = call_is_closed c.
Proof. now destruct c. Qed.
Lemma has_target_call c : call_has_target src (lower_call k c) = call_has_target src c.
Proof. destruct c as [p q o cl [pa|[]] a h l]; reflexivity. Qed.
Lemma conditional_call c : c_conditional (lower_call k c) = c_conditional c.
Proof. now destruct c. Qed.
Lemma partial_call c : c_partial (lower_call k c) = c_partial c.
Proof. now destruct c. Qed.
Lemma call_off fuel :
  (forall open s t, below s t -> moved below lc (sub_expr fuel cx open s) (sub_expr fuel cx open t))
  /\ (forall q u s t, below s t -> moved below lv (value_ fuel cx q u s) (value_ fuel cx q u t))
  /\ (forall c u ctx s t, below s t -> moved below lc (key_value fuel cx c u ctx s) (key_value fuel cx (lower_call k c) u ctx t))
  /\ (forall c n ctx s t, below s t -> moved below lc (kv_loop fuel cx c n ctx s) (kv_loop fuel cx (lower_call k c) n ctx t))
  /\ (forall c n ctx s t, below s t -> moved below lc (arguments fuel cx c n ctx s) (arguments fuel cx (lower_call k c) n ctx t))
  /\ (forall c n ctx s t, below s t -> moved below lc (call_target fuel cx c n ctx s) (call_target fuel cx (lower_call k c) n ctx t)).
Proof.
  induction fuel as [|fuel (I1 & I2 & I3 & I4 & I5 & I6)]; [repeat split|].
  assert (Hok : forall c c' n s t, below s t -> c' = lower_call k c -> moved below lc (POk (c, n) s) (POk (c', n) t)) by (intros c c' n s t H ->; now apply moved_ok).
  assert (Hend : forall c u s t, below s t -> moved below lc (POk (call_exit (tspan u) c, fst (pnext s)) (snd (pnext s))) (POk (call_exit (tspan u) (lower_call k c), fst (pnext t)) (snd (pnext t)))).
  { intros c u s t H. destruct (below_next _ _ H) as [E H1]. apply moved_ok; [|exact H1]. unfold lc. cbn [fst snd]. now rewrite exit_call, E. }
  split; [|split; [|split; [|split; [|split]]]].
  - intros open s t H. rewrite !sub_expr_eq. cbv zeta. apply (below_set (snd open)) in H. rewrite (new_call open _ _ H). destruct (below_next _ _ H) as [E H1]. rewrite E.
    eapply moved_bind; [apply I6, H1|]. intros [c n] s2 t2 H2. unfold lc at 2 3. cbn [fst snd]. eapply moved_bind; [apply I5, H2|]. intros [c3 n3] s3 t3 H3. unfold lc at 2 3 4. cbn [fst snd].
    rewrite closed_call. destruct (call_is_closed c3); [|now apply moved_perr]. apply Hok; [exact H3|]. now apply end_call.
  - intros q u s t H. rewrite !value_eq. destruct (val_action q).
    + eapply moved_bind; [apply path_parse_off, H|]. intros [[p|] n] s1 t1 H1; cbn [lop fst snd option_map]; [now apply moved_ok|now apply moved_perr].
    + eapply moved_bind; [apply I1, H|]. intros [c n] s1 t1 H1. now apply moved_ok.
    + eapply moved_bind; [apply json_literal_off, H|]. intros [v sp] s1 t1 H1. destruct (below_next _ _ H1) as [E H2]. apply moved_ok; [|exact H2]. unfold lv. cbn [fst snd lower_param]. now rewrite E, (below_range _ _ H).
    + now apply moved_perr.
  - intros c u ctx s t H. rewrite !key_value_eq, (below_toks _ _ H). apply moved_pslice. intros key. destruct (p_toks s) as [|v vs]; [now apply I4|].
    pose proof (below_tail _ _ vs H) as H1. destruct (t_kind v) as [q|q|q|q|q|q|q|q|q]; try (now apply moved_perr).
    eapply moved_bind; [apply I2, H1|]. intros [x n] s2 t2 H2. unfold lv. cbn [fst snd]. rewrite add_param_call. now apply I4.
  - intros c n ctx s t H. rewrite !kv_loop_eq. destruct n as [u|]; [|now apply Hok]. destruct (t_kind u) as [q|q|q|q|q|q|q|q|q]; try (now apply moved_perr). destruct (kv_action q).
    + destruct (below_next _ _ (below_count q _ _ H)) as [E H1]. rewrite E. now apply I4.
    + now apply I3.
    + apply Hok; [exact H|apply exit_call].
    + destruct ctx; [now apply moved_perr|now apply Hend].
    + now apply moved_perr.
  - intros c n ctx s t H. rewrite !arguments_eq. destruct n as [u|]; [|now apply Hok]. destruct (t_kind u) as [q|q|q|q|q|q|q|q|q]; try (now apply moved_perr). destruct (arg_action q).
    + destruct (below_next _ _ (below_count q _ _ H)) as [E H1]. rewrite E. now apply I5.
    + now apply moved_perr.
    + now apply Hok.
    + eapply moved_bind; [apply I2, H|]. intros [x n] s2 t2 H2. unfold lv. cbn [fst snd]. rewrite add_arg_call. now apply I5.
    + now apply I3.
    + destruct ctx; [now apply moved_perr|now apply Hend].
    + apply Hok; [exact H|]. destruct ctx; [apply exit_call|reflexivity].
  - intros c n ctx s t H. rewrite !call_target_eq. destruct n as [u|]; [|now apply Hok]. destruct (t_kind u) as [q|q|q|q|q|q|q|q|q]; try (now apply moved_perr). destruct (tgt_action q).
    + destruct (below_next _ _ (below_count q _ _ H)) as [E H1]. rewrite E. now apply I6.
    + now apply moved_perr.
    + eapply moved_bind; [apply path_parse_off, H|]. intros [[p|] n] s1 t1 H1; cbn [lop fst snd option_map]; [|now apply Hok]. apply Hok; [exact H1|]. apply (set_target_call (TPath p)).
    + destruct ctx; [|now apply moved_perr]. eapply moved_bind; [apply I1, H|]. intros [x n] s1 t1 H1. cbn [lc fst snd]. apply Hok; [exact H1|]. apply (set_target_call (TSub x)).
    + change (px_src cx) with src. rewrite has_target_call, conditional_call. destruct (call_has_target src c) as [has|]; [|reflexivity]. destruct (negb has && _); [now apply moved_perr|].
      apply Hok; [exact H|]. destruct ctx; [apply exit_call|reflexivity].
Qed.
Lemma flags_off : forall toks c next line b1 b2, (B -> b1 = b2) -> let r1 := flags_go c next toks line b1 in let r2 := flags_go (lower_call k c) next toks (line + k) b2 in
  fst r2 = lc (fst r1) /\ below (snd r1) (snd r2).
Proof.
  induction toks as [|t' ts IH]; intros c next line b1 b2 Hb; cbv zeta; destruct next as [t|]; cbn [flags_go]; try (split; [reflexivity|now constructor]);
    destruct (t_kind t) as [q|q|q|q|q|q|q|q|q]; try (split; [reflexivity|now constructor]); destruct q; try (split; [reflexivity|now constructor]); cbn [pnext p_toks p_line p_byte fst snd].
  all: try (split; [|first [now constructor|now apply below_intro]]; destruct c; reflexivity).
  all: first [now apply (IH c)|exact (IH c (Some t') (S line) b1 b2 Hb)].
Qed.
Lemma call_parse_off open s t : below s t -> moved below (lower_call k) (call_parse cx open s) (call_parse cx open t).
Proof.
  intros H. unfold call_parse. cbv zeta. apply (below_set (snd open)) in H. rewrite (new_call open _ _ H). destruct (below_next _ _ H) as [E H1].
  set (c := call_new open (line_range (set_byte (snd open) s))). clearbody c.
  destruct (pnext (set_byte (snd open) s)) as [n s1], (pnext (set_byte (snd open) t)) as [n' t1]. cbn [fst snd] in *. subst n'. destruct H1 as [toks line b1 b2 Hb]. cbn [p_toks p_line p_byte].
  destruct (flags_off toks c n line b1 b2 Hb) as [E2 H2]. destruct (flags_go c n toks line b1) as [[c2 n2] s2], (flags_go (lower_call k c) n toks (line + k) b2) as [[c2' n2'] t2].
  cbn [fst snd] in *. injection E2 as -> ->. rewrite partial_call, conditional_call. cbn [fst snd]. destruct (_ && _); [now apply moved_perr|].
  assert (Ef : forall s t, below s t -> call_fuel t = call_fuel s) by (intros x y Hxy; unfold call_fuel; now rewrite (below_toks _ _ Hxy)).
  rewrite (Ef _ _ H2). eapply moved_bind; [apply call_off, H2|]. intros [c3 n3] s3 t3 H3. unfold lc at 1. cbn [fst snd]. rewrite (Ef _ _ H3).
  eapply moved_bind; [apply call_off, H3|]. intros [c4 n4] s4 t4 H4. cbn [lc fst snd]. apply moved_ok; [|exact H4]. now apply end_call.
Qed.
(** ** Links, comments, raw blocks *)
Ltac lk := unfold lower_link, link_set_close, link_set_line_end, link_set_href_span, link_set_label_span, link_set_title_span, link_set_href, link_set_label, link_set_title; cbn; reflexivity.
Lemma assign_off l f sp vt : assign_if_escaped src (lower_link k l) f sp vt = option_map (lower_link k) (assign_if_escaped src l f sp vt).
Proof. unfold assign_if_escaped. destruct (ef_any f); [|reflexivity]. destruct vt; cbn [lk_label_span lk_title_span lower_link]; destruct (slice _ _ _); try reflexivity; cbn [option_map]; f_equal; lk. Qed.
Lemma link_value_off : forall toks l vt f line b1 b2, (B -> b1 = b2) -> moved below (lower_link k) (link_value cx l vt f toks line b1) (link_value cx (lower_link k l) vt f toks (line + k) b2).
Proof.
  induction toks as [|t ts IH]; intros l vt f line b1 b2 Hb; cbn [link_value]; [apply moved_ok; [reflexivity|now constructor]|].
  destruct (t_kind t) as [q|q|q|q|q|q|q|q|q]; try (apply moved_perr; now constructor). destruct q; try (apply moved_perr; now constructor).
  all: try exact (IH l vt f (S line) _ _ (fun _ => eq_refl)).
  all: try exact (IH l vt _ line _ _ (fun _ => eq_refl)).
  all: try (destruct vt; [exact (IH (link_set_label_span (fst (lk_label_span l), t_end t) l) VLabel f line _ _ (fun _ => eq_refl))|exact (IH (link_set_title_span (fst (lk_title_span l), t_end t) l) VTitle f line _ _ (fun _ => eq_refl))]).
  all: change (px_src cx) with src.
  all: try (rewrite assign_off; destruct (assign_if_escaped src l f (tspan t) vt) as [l'|]; cbn [option_map]; [apply moved_ok; [reflexivity|now constructor]|reflexivity]).
  destruct vt; [|exact (IH (link_set_title_span (fst (lk_title_span l), t_end t) l) VTitle f line _ _ (fun _ => eq_refl))].
  change (link_set_label_span (fst (lk_label_span (lower_link k l)), t_start t) (lower_link k l)) with (lower_link k (link_set_label_span (fst (lk_label_span l), t_start t) l)).
  rewrite assign_off. destruct (assign_if_escaped src _ f (tspan t) VLabel) as [l'|]; cbn [option_map]; [|reflexivity].
  exact (IH (link_set_title_span (t_end t, snd (lk_title_span l')) l') VTitle ef_none line _ _ (fun _ => eq_refl)).
Qed.
Lemma link_href_off : forall toks l f line b1 b2, (B -> b1 = b2) -> moved below (lower_link k) (link_href_go cx l f toks line b1) (link_href_go cx (lower_link k l) f toks (line + k) b2).
Proof.
  induction toks as [|t ts IH]; intros l f line b1 b2 Hb; cbn [link_href_go]; [apply moved_ok; [reflexivity|now constructor]|].
  change (px_src cx) with src. change (lk_open (lower_link k l)) with (lk_open l).
  assert (Ha : (if ef_any f then match slice src (snd (lk_open l)) (t_start t) with Some v => Some (link_set_href (ef_owned f v) (lower_link k l)) | None => None end else Some (lower_link k l))
    = option_map (lower_link k) (if ef_any f then match slice src (snd (lk_open l)) (t_start t) with Some v => Some (link_set_href (ef_owned f v) l) | None => None end else Some l)).
  { destruct (ef_any f); [|reflexivity]. destruct (slice _ _ _); reflexivity. }
  destruct (t_kind t) as [q|q|q|q|q|q|q|q|q]; try (apply moved_perr; now constructor). destruct q; try (apply moved_perr; now constructor).
  all: try (apply moved_ok; [reflexivity|]; now apply (below_intro ts (S line))).
  all: try exact (IH l _ line _ _ (fun _ => eq_refl)).
  all: try exact (IH (link_set_href_span (fst (lk_href_span l), t_end t) l) f line _ _ (fun _ => eq_refl)).
  all: rewrite Ha; clear Ha; destruct (if ef_any f then _ else _) as [l'|]; cbn [option_map]; try reflexivity.
  all: try (apply moved_ok; [reflexivity|now constructor]).
  exact (link_value_off ts (link_set_label_span (t_end t, snd (lk_label_span l')) l') VLabel ef_none line _ _ (fun _ => eq_refl)).
Qed.
Lemma link_parse_off open s t : below s t -> moved below (lower_link k) (link_parse cx open s) (link_parse cx open t).
Proof.
  intros H. unfold link_parse. cbv zeta. apply (below_set (snd open)) in H. rewrite (below_range _ _ H).
  change (link_new open (lower k (line_range (set_byte (snd open) s)))) with (lower_link k (link_new open (line_range (set_byte (snd open) s)))).
  eapply moved_bind; [destruct H as [toks line b1 b2 Hb]; cbn [p_toks p_line p_byte]; now apply link_href_off|].
  intros l s1 t1 H1. change (lk_close (lower_link k l)) with (lk_close l). destruct (lk_close l); [|now apply moved_perr].
  apply moved_ok; [|exact H1]. rewrite (below_line _ _ H1). unfold link_set_line_end, lower_link, lower. cbn. f_equal. f_equal. lia.
Qed.
Lemma until_off stop : forall toks sp line b1 b2, (B -> b1 = b2) -> let r1 := until stop sp toks line b1 in let r2 := until stop sp toks (line + k) b2 in
  fst r2 = fst r1 /\ below (snd r1) (snd r2).
Proof.
  induction toks as [|t ts IH]; intros sp line b1 b2 Hb; cbv zeta; cbn [until]; [split; [reflexivity|now constructor]|].
  assert (E : (if is_newline (t_kind t) then S (line + k) else line + k) = (if is_newline (t_kind t) then S line else line) + k) by (destruct (is_newline _); reflexivity). rewrite E.
  destruct (stop (t_kind t)); [split; [reflexivity|now constructor]|]. exact (IH (fst sp, t_end t) (if is_newline (t_kind t) then S line else line) (t_end t - 1) (t_end t - 1) (fun _ => eq_refl)).
Qed.
Definition ltb (r : option (text_block * token)) : option (text_block * token) := option_map (fun x => (lower_text_block k (fst x), snd x)) r.
Lemma text_until_off stop open s t : below s t -> let r1 := text_until stop open s in let r2 := text_until stop open t in fst r2 = ltb (fst r1) /\ below (snd r1) (snd r2).
Proof.
  intros H. cbv zeta. unfold text_until. cbv zeta. rewrite (below_range _ _ H). set (lr := line_range s). destruct H as [toks line b1 b2 Hb]. cbn [p_toks p_line p_byte].
  destruct (until_off stop toks (snd open, snd open) line b1 b2 Hb) as [E H]. destruct (until stop _ toks line b1) as [[sp n] s1], (until stop _ toks (line + k) b2) as [[sp' n'] t1]. cbn [fst snd] in *.
  injection E as -> ->. destruct n as [cl|]; cbn [fst snd]; [|now split]. split; [|exact H]. rewrite (below_line _ _ H). unfold ltb, lower_text_block, lower_text, lower. cbn. do 5 f_equal. lia.
Qed.
Lemma target_str_off x : target_str src (lower_target k x) = target_str src x.
Proof. destruct x as [p|[]]; reflexivity. Qed.
Lemma block_name_off b : block_name src (lower_block k b) = block_name src b.
Proof. destruct b as [ns r o cl [p q o' cl' [pa|c] a h l] cs ln]; reflexivity. Qed.
Lemma raw_block_off open s t : below s t -> moved below (lower_node k) (raw_block cx open s) (raw_block cx open t).
Proof.
  intros H. unfold raw_block. cbv zeta. rewrite (below_range _ _ H). eapply moved_bind; [apply call_parse_off, H|]. intros c s1 t1 H1.
  assert (Ec : c_close (lower_call k c) = c_close c) by now destruct c. rewrite Ec. destruct (c_close c) as [e|]; [|now apply moved_perr].
  assert (Et : c_target (lower_call k c) = lower_target k (c_target c)) by now destruct c. change (px_src cx) with src. rewrite Et, target_str_off. apply moved_pslice. intros name.
  destruct (text_until_off is_end_raw_block e _ _ H1) as [E2 H2]. destruct (text_until is_end_raw_block e s1) as [r s2], (text_until is_end_raw_block e t1) as [r' t2]. cbn [fst snd] in *. subst r'.
  destruct r as [[tb u]|]; cbn [ltb option_map fst snd]; [|now apply moved_perr]. eapply moved_bind; [apply call_parse_off, H2|]. intros c3 s3 t3 H3.
  assert (Ec3 : c_close (lower_call k c3) = c_close c3) by now destruct c3. rewrite Ec3. destruct (c_close c3) as [e3|]; [|now apply moved_perr].
  assert (Et3 : c_target (lower_call k c3) = lower_target k (c_target c3)) by now destruct c3. rewrite Et3, target_str_off. apply moved_pslice. intros name3.
  destruct (streq name name3); [|now apply moved_perr_n]. apply moved_ok; [|exact H3]. rewrite (below_line _ _ H3).
  assert (Eo : c_open (lower_call k c3) = c_open c3) by now destruct c3. rewrite Eo. cbn. f_equal. f_equal. unfold lower. cbn. f_equal. lia.
Qed.
Lemma leaves_off open s t : below s t ->
  moved below (lower_node k) (raw_comment cx open s) (raw_comment cx open t) /\ moved below (lower_node k) (raw_statement cx open s) (raw_statement cx open t)
  /\ moved below (lower_node k) (comment cx open s) (comment cx open t) /\ moved below (lower_block k) (scope cx open s) (scope cx open t).
Proof.
  intros H. unfold raw_comment, raw_statement, comment, scope. split; [|split; [|split]].
  - destruct (text_until_off is_end_raw_comment open _ _ H) as [E H1]. destruct (text_until is_end_raw_comment open s) as [r s2], (text_until is_end_raw_comment open t) as [r' t2]. cbn [fst snd] in *. subst r'. destruct r as [[tb u]|]; [now apply moved_ok|now apply moved_perr].
  - destruct (text_until_off is_end_raw_statement open _ _ H) as [E H1]. destruct (text_until is_end_raw_statement open s) as [r s2], (text_until is_end_raw_statement open t) as [r' t2]. cbn [fst snd] in *. subst r'. destruct r as [[tb u]|]; [now apply moved_ok|now apply moved_perr].
  - destruct (text_until_off is_end_comment open _ _ H) as [E H1]. destruct (text_until is_end_comment open s) as [r s2], (text_until is_end_comment open t) as [r' t2]. cbn [fst snd] in *. subst r'. destruct r as [[tb u]|]; [now apply moved_ok|now apply moved_perr].
  - cbv zeta. rewrite (below_range _ _ H). eapply moved_bind; [apply call_parse_off, H|]. intros c s1 t1 H1. now apply moved_ok.
Qed.
(** ** Blocks *)
Definition lstack (stk : list (str * block)) : list (str * block) := map (fun x => (fst x, lower_block k (snd x))) stk.
Inductive fbelow : fstate -> fstate -> Prop := fbelow_intro p q stk nx : below p q -> fbelow (mkF p stk nx) (mkF q (lstack stk) nx).
Lemma moved_lift {A} (f : A -> A) m1 m2 stk nx : moved below f m1 m2 -> moved fbelow f (lift m1 stk nx) (lift m2 (lstack stk) nx).
Proof.
  destruct m1, m2; cbn [lift moved]; intros H; try contradiction; try exact H; try (destruct p; try contradiction; exact H).
  - destruct H as [-> H]. split; [reflexivity|now constructor].
  - destruct H as (H1 & H2 & H3). split; [exact H1|]. split; [now constructor|exact H3].
Qed.
Lemma last_cond_off f f' cs : (forall b, f' (lower_block k b) = lower_block k (f b)) -> map_last_block f' (map (lower_node k) cs) = map (lower_node k) (map_last_block f cs).
Proof.
  intros Hf. induction cs as [|n cs IH]; [reflexivity|]. destruct cs as [|m cs].
  - destruct n; try reflexivity. cbn. now rewrite Hf.
  - destruct n; cbn [map map_last_block] in *; now rewrite IH.
Qed.
Lemma map_cond_off f f' b : (forall b, f' (lower_block k b) = lower_block k (f b)) -> block_map_last_cond f' (lower_block k b) = lower_block k (block_map_last_cond f b).
Proof. intros Hf. destruct b. cbn. now rewrite (last_cond_off f f'). Qed.
Lemma push_raw_off n b : block_push_raw (lower_node k n) (lower_block k b) = lower_block k (block_push_raw n b).
Proof. destruct b. cbn. now rewrite map_app. Qed.
Lemma push_off n b : block_push (lower_node k n) (lower_block k b) = lower_block k (block_push n b).
Proof.
  unfold block_push. assert (E : b_conds (lower_block k b) = map (lower_node k) (b_conds b)) by now destruct b. rewrite E. destruct (b_conds b); cbn [map]; [apply push_raw_off|].
  apply map_cond_off. intros b'. apply push_raw_off.
Qed.
Lemma set_close_off sp b : block_set_close sp (lower_block k b) = lower_block k (block_set_close sp b).
Proof. now destruct b. Qed.
Lemma exit_off sp b : block_exit sp (lower_block k b) = lower_block k (block_exit sp b).
Proof. unfold block_exit. rewrite (map_cond_off (block_set_close sp)) by apply set_close_off. apply set_close_off. Qed.
Lemma add_condition_off c b : block_add_condition (lower_block k c) (lower_block k b) = lower_block k (block_add_condition c b).
Proof.
  unfold block_add_condition, block_close_condition. assert (E : c_open (b_call (lower_block k c)) = c_open (b_call c)) by (destruct c as [? ? ? ? [] ? ?]; reflexivity). rewrite E.
  destruct (0 <? _); [rewrite (map_cond_off (block_set_close (fst (c_open (b_call c)) - 1, fst (c_open (b_call c))))) by apply set_close_off; destruct (block_map_last_cond _ b)|destruct b]; cbn; now rewrite map_app.
Qed.
Lemma attach_off n s t b : below s t -> attach (lower_node k n) (line_range t) (lower_block k b) = lower_block k (attach n (line_range s) b).
Proof.
  intros H. rewrite (below_range _ _ H). destruct n; try apply push_off. cbn [attach lower_node]. rewrite conditional_call. destruct (c_conditional c).
  - rewrite <- add_condition_off. cbn [block_set_call block_new lower_block]. assert (E : c_open (lower_call k c) = c_open c) by now destruct c. now rewrite E.
  - apply (push_off (NStmt c)).
Qed.
Lemma lines_end_off s t b : below s t -> block_lines_end (p_line t) (lower_block k b) = lower_block k (block_lines_end (p_line s) b).
Proof. intros H. rewrite (below_line _ _ H). destruct b. cbn. f_equal. unfold lower. cbn. f_equal. lia. Qed.
Definition lo : option node -> option node := option_map (lower_node k).
Lemma fmoved_ok {A} (f : A -> A) a b s t : b = f a -> fbelow s t -> moved fbelow f (POk a s) (POk b t).
Proof. now split. Qed.
Lemma fnext_off s t : fbelow s t -> fst (ftoken t) = fst (ftoken s) /\ fbelow (snd (ftoken s)) (snd (ftoken t)).
Proof.
  intros [p q stk [u|] H]; unfold ftoken; cbn [f_next f_p f_stack]; [split; [reflexivity|now constructor]|].
  destruct (below_next _ _ H) as [E H1]. destruct (pnext p) as [a p'], (pnext q) as [a' q']. cbn [fst snd] in *. split; [exact E|now constructor].
Qed.
Lemma advance_off fuel : (forall u s t, fbelow s t -> moved fbelow lo (advance fuel cx u s) (advance fuel cx u t)) /\ (forall s t, fbelow s t -> moved fbelow lo (block_loop fuel cx s) (block_loop fuel cx t)).
Proof.
  induction fuel as [|fuel [I1 I2]]; [split; intros; exact I|]. split.
  - intros u s t [p q stk nx H0]. rewrite !advance_eq. cbv zeta. cbn [f_p f_stack f_next]. change (px_src cx) with src.
    assert (H : below (if is_newline (t_kind u) then inc_line p else p) (if is_newline (t_kind u) then inc_line q else q)) by (destruct (is_newline _); [now apply below_inc|exact H0]).
    revert H. generalize (if is_newline (t_kind u) then inc_line p else p) as p1, (if is_newline (t_kind u) then inc_line q else q) as q1. clear H0. intros p1 q1 H.
    destruct (is_text (t_kind u)).
    { rewrite (below_range _ _ H). set (lr := line_range p1). destruct H as [toks line b1 b2 Hb]. cbn [p_toks p_line p_byte].
      destruct (until_off (fun z => negb (is_text z)) toks (tspan u) line b1 b2 Hb) as [E H]. destruct (until _ _ toks line b1) as [[sp n] s1], (until _ _ toks (line + k) b2) as [[sp' n'] t1]. cbn [fst snd] in *.
      injection E as -> ->. apply fmoved_ok; [|now constructor]. rewrite (below_line _ _ H). unfold lo, lower_node, lower_text, lower. cbn. do 4 f_equal. lia. }
    pose proof (leaves_off (tspan u) p1 q1 H) as (L1 & L2 & L3 & L4).
    destruct (t_kind u) as [z|z|z|z|z|z|z|z|z]; try (apply fmoved_ok; [reflexivity|now constructor]). destruct z; try (apply fmoved_ok; [reflexivity|now constructor]).
    all: eapply moved_bind; [apply moved_lift; first [eassumption|apply raw_block_off, H|apply call_parse_off, H|apply link_parse_off, H]|].
    all: try (intros a s1 t1 H1; apply fmoved_ok; [reflexivity|exact H1]).
    + intros b s1 t1 H1. rewrite block_name_off. destruct H1 as [p2 q2 stk2 nx2 H2]. cbn [f_p f_stack f_next].
      assert (Ec : b_call (lower_block k b) = lower_call k (b_call b)) by now destruct b. rewrite Ec. set (c := b_call b). assert (Et : c_target (lower_call k c) = lower_target k (c_target c)) by now destruct c. rewrite Et.
      destruct (block_name src b) as [[name|]|]; [| |reflexivity].
      * assert (HI : moved fbelow lo (block_loop fuel cx (mkF p2 ((name, b) :: stk) nx)) (block_loop fuel cx (mkF q2 ((name, lower_block k b) :: lstack stk) nx))) by (apply I2; exact (fbelow_intro p2 q2 ((name, b) :: stk) nx H2)).
        destruct (c_target c) as [pa|x]; cbn [lower_target]; [exact HI|]. rewrite partial_call. destruct (c_partial c); [exact HI|]. apply moved_lift. now apply moved_perr.
      * apply moved_lift. assert (Es : target_span (lower_target k (c_target c)) = target_span (c_target c)) by (destruct (c_target c) as [pa|[]]; reflexivity). rewrite Es. apply moved_perr. now apply below_set.
    + intros b s1 t1 H1. rewrite block_name_off. destruct H1 as [p2 q2 stk2 nx2 H2]. cbn [f_p f_stack f_next].
      destruct (block_name src b) as [close|]; [|reflexivity]. destruct stk as [|[on ob] stk']; cbn [lstack map fst snd].
      { apply (moved_lift lo _ _ []). apply moved_perr_n. now apply below_set. }
      destruct close as [cn|]; [|apply (moved_lift lo); now apply moved_perr]. destruct (streq on cn); [|apply (moved_lift lo); now apply moved_perr_n].
      apply fmoved_ok; [|now constructor]. assert (Ec : b_call (lower_block k b) = lower_call k (b_call b)) by now destruct b. rewrite Ec, closed_call.
      assert (Es : call_span (lower_call k (b_call b)) = call_span (b_call b)) by (destruct (b_call b); reflexivity). rewrite Es. unfold lo. cbn [option_map lower_node]. rewrite exit_off, (lines_end_off _ _ _ H2). reflexivity.
  - intros s t H. rewrite !block_loop_eq. destruct (fnext_off _ _ H) as [E H1]. rewrite E. destruct (fst (ftoken s)) as [u|]; [|now apply fmoved_ok].
    eapply moved_bind; [apply I1, H1|]. intros [n|] s2 t2 H2; cbn [lo option_map]; [|now apply fmoved_ok].
    destruct H2 as [p q stk nx H2]. cbn [f_stack f_p f_next]. destruct stk as [|[name b] stk]; cbn [lstack map fst snd]; [apply fmoved_ok; [reflexivity|exact (fbelow_intro p q [] nx H2)]|].
    rewrite (attach_off _ _ _ _ H2). apply I2. exact (fbelow_intro p q ((name, attach n (line_range p) b) :: stk) nx H2).
Qed.
Lemma parse_loop_off fuel : forall acc s t, fbelow s t -> moved fbelow (map (lower_node k)) (parse_loop fuel cx acc s) (parse_loop fuel cx (map (lower_node k) acc) t).
Proof.
  induction fuel as [|fuel IH]; intros acc s t H; [exact I|]. rewrite !parse_loop_eq. destruct (fnext_off _ _ H) as [E H1]. rewrite E. destruct (fst (ftoken s)) as [u|]; [|now apply fmoved_ok].
  assert (Ef : adv_fuel (snd (ftoken t)) = adv_fuel (snd (ftoken s))) by (destruct H1 as [p q stk nx Hp]; unfold adv_fuel; cbn [f_p]; now rewrite (below_toks _ _ Hp)). rewrite Ef.
  eapply moved_bind; [apply advance_off, H1|]. intros [n|] s2 t2 H2; cbn [lo option_map]; [|now apply fmoved_ok].
  specialize (IH (acc ++ [n]) _ _ H2). rewrite map_app in IH. exact IH.
Qed.
End Offset.
Lemma compile_off pe src file k line b1 b2 (B : Prop) : (B -> b1 = b2) ->
  moved pe src file k B (fbelow k B) (lower_node k) (compile pe (mkOpts file line b1) src) (compile pe (mkOpts file (line + k) b2) src).
Proof.
  intros Hb. unfold compile. destruct (lex src) as [toks|]; [|exact I]. cbn [po_file po_line po_byte]. cbv zeta.
  eapply moved_bind; [apply (parse_loop_off pe src file k B (S (length toks)) [])|].
  - apply (fbelow_intro k B _ _ []). now constructor.
  - intros a s t H. now split.
Qed.

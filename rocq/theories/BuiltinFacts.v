(** * BuiltinFacts: the builtin helpers are balanced, pass I/O errors on, register nothing and ignore the order of missing values. *)
From Coq Require Import Lia String Permutation.
From Verif Require Import Str Json Ast ErrInfo Parser Render Helpers Registry Tests Spec_Helpers StrFacts
  Spec_Render RelFacts FuelFacts UnaryFacts StateFacts OutFacts TermFacts HashFacts LimitFacts.
Open Scope nat_scope. Open Scope list_scope.

(** ** the builtin helpers meet the conditions on helpers used below *)
Ltac each_builtin H := cbn [registry_new rg_helpers builtins] in H;
  repeat (destruct H as [H|H]; [injection H as <- <-|]); [..|contradiction].
Ltac none H := discriminate H.
Lemma all_builtins (P : hprog -> Prop) pl : (forall n h, In (n, h) (builtins (pl_fstr pl)) -> forall c t, P (h c t)) -> all_helpers P (registry_new pl).
Proof. intros H. split; [exact H|]. repeat split; intros h Hh; discriminate Hh. Qed.
Ltac open_helper := intros c t;
  unfold if_helper, unless_helper, with_helper, each_helper, eq_helper, ne_helper, gt_helper, gte_helper, lt_helper, lte_helper, cmp_helper,
    and_helper, or_helper, not_helper, lookup_helper, json_helper, log_helper, with_arity, with_arg, htry;
  repeat match goal with
         | |- context [match ?x with _ => _ end] => lazymatch x with context [match _ with _ => _ end] => fail | _ => destruct x end
         end.
Lemma bal_obj t k : balanced (Some 1) k -> forall l i, balanced (Some 1) (each_obj t i l k).
Proof. intros Hk. induction l as [|[key v] l IH]; intros i; [exact Hk|]. cbn. split; [discriminate|]. split; [apply IH | intros; exact I]. Qed.
Lemma bal_arr t n k : balanced (Some 1) k -> forall l i, balanced (Some 1) (each_arr t n i l k).
Proof. intros Hk. induction l as [|v l IH]; intros i; [exact Hk|]. cbn. split; [discriminate|]. split; [apply IH | intros; exact I]. Qed.
Lemma io_obj t k : passes_io k -> forall l i, passes_io (each_obj t i l k).
Proof. intros Hk. induction l as [|[key v] l IH]; intros i; [exact Hk|]. cbn. split; [intros []; cbn; auto | reflexivity]. Qed.
Lemma io_arr t n k : passes_io k -> forall l i, passes_io (each_arr t n i l k).
Proof. intros Hk. induction l as [|v l IH]; intros i; [exact Hk|]. cbn. split; [intros []; cbn; auto | reflexivity]. Qed.
Lemma reg_obj U t k : registers_in U k -> forall l i, registers_in U (each_obj t i l k).
Proof. intros Hk. induction l as [|[key v] l IH]; intros i; [exact Hk|]. cbn. intros []; cbn; auto. Qed.
Lemma reg_arr U t n k : registers_in U k -> forall l i, registers_in U (each_arr t n i l k).
Proof. intros Hk. induction l as [|v l IH]; intros i; [exact Hk|]. cbn. intros []; cbn; auto. Qed.
Lemma hall_obj Q t k : hall Q k -> forall l i, hall Q (each_obj t i l k).
Proof. intros Hk. induction l as [|[key v] l IH]; intros i; [exact Hk|]. cbn. intros []; cbn; auto. Qed.
Lemma hall_arr Q t n k : hall Q k -> forall l i, hall Q (each_arr t n i l k).
Proof. intros Hk. induction l as [|v l IH]; intros i; [exact Hk|]. cbn. intros []; cbn; auto. Qed.
Lemma bal_log d lv k : balanced d k -> forall ls, balanced d (log_lines lv ls k).
Proof. intros Hk. induction ls; [exact Hk|assumption]. Qed.
Lemma io_log lv k : passes_io k -> forall ls, passes_io (log_lines lv ls k).
Proof. intros Hk. induction ls; [exact Hk|assumption]. Qed.
Lemma reg_log U lv k : registers_in U k -> forall ls, registers_in U (log_lines lv ls k).
Proof. intros Hk. induction ls; [exact Hk|assumption]. Qed.
Lemma hall_log Q lv k : hall Q k -> forall ls, hall Q (log_lines lv ls k).
Proof. intros Hk. induction ls; [exact Hk|assumption]. Qed.
Lemma run_log K en lv k : forall ls, run K en (log_lines lv ls k) = run K en k.
Proof. induction ls; [reflexivity|assumption]. Qed.
Ltac hsolve := repeat first
  [ progress (cbn; auto)
  | progress intros
  | apply bal_obj | apply bal_arr | apply io_obj | apply io_arr | apply reg_obj | apply reg_arr | apply hall_obj | apply hall_arr
  | apply bal_log | apply io_log | apply reg_log | apply hall_log
  | match goal with
    | |- _ /\ _ => split
    | |- _ <> _ => discriminate
    | |- context [match ?x with _ => _ end] => is_var x; destruct x
    end ].
Lemma builtins_balanced pl : all_helpers (balanced (Some 0)) (registry_new pl).
Proof. apply all_builtins. intros n h H. each_builtin H; open_helper; hsolve. Qed.
Lemma builtins_pass_io pl : all_helpers passes_io (registry_new pl).
Proof. apply all_builtins. intros n h H. each_builtin H; open_helper; hsolve. Qed.
Lemma builtins_register_nothing pl : all_helpers (registers_in []) (registry_new pl).
Proof. apply all_builtins. intros n h H. each_builtin H; open_helper; hsolve. Qed.
Lemma builtins_hall Q pl : all_helpers (hall Q) (registry_new pl).
Proof. apply all_builtins. intros n h H. each_builtin H; open_helper; hsolve. Qed.
Lemma arity_same c c' lo hi : hc_args c = hc_args c' -> hc_name c = hc_name c' -> ctx_arity c lo hi = ctx_arity c' lo hi.
Proof. intros H1 H2. unfold ctx_arity. rewrite H1, H2. reflexivity. Qed.
Lemma get_same c c' i : hc_args c = hc_args c' -> ctx_get c i = ctx_get c' i.
Proof. intros H1. unfold ctx_get. rewrite H1. reflexivity. Qed.
Lemma param_same c c' k : hc_params c = hc_params c' -> ctx_param c k = ctx_param c' k.
Proof. intros H1. unfold ctx_param. rewrite H1. reflexivity. Qed.
Lemma try_same c c' i ks : hc_args c = hc_args c' -> hc_name c = hc_name c' -> ctx_try_get c i ks = ctx_try_get c' i ks.
Proof. intros H1 H2. unfold ctx_try_get, ctx_try_value, ctx_assert, ctx_get. rewrite H1, H2. reflexivity. Qed.
Lemma builtins_order_blind pl n h : In (n, h) (rg_helpers (registry_new pl)) -> order_blind h.
Proof.
  intros H. each_builtin H; intros c c' t H1 H2 H3 H4 H5 H6 H7 H8;
  unfold if_helper, unless_helper, with_helper, each_helper, eq_helper, ne_helper, gt_helper, gte_helper, lt_helper, lte_helper, cmp_helper,
    and_helper, or_helper, not_helper, lookup_helper, json_helper, log_helper, with_arity, with_arg;
  rewrite ?(arity_same c c' _ _ H4 H3), ?(get_same c c' _ H4), ?(param_same c c' _ H5), ?(try_same c c' _ _ H4 H3), ?H3, ?H4; try reflexivity.
Qed.

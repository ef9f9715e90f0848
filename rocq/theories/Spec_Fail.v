(** * Spec_Fail: when rendering a template stops, and with which error (or panic); the other half of the semantics of Spec_Sem.
    Again defined on syntax trees only: an item writes some text and then stops.  No proofs in this file. *)
From Coq Require Import String.
From Verif Require Import Str Lexer Json Ast Parser Render Helpers Registry Spec_Lexer Spec_Values Spec_Helpers Spec_Blocks Spec_Calls Spec_Source Spec_Sem.
Open Scope nat_scope. Open Scope list_scope.

(** [this], [this.x] and [./x] *)
Definition explicit (h : head) : Prop := h = HdThis \/ exists s, h = HdDot s.

(** [nm] is the name the template is rendered under: it appears in the error for a missing variable.
    Arguments are evaluated from left to right and the first failure counts; hash arguments are evaluated in the order
    of a hash table, so there is only a statement when exactly one of them fails. *)
Inductive arg_fails (w : world) (nm : str) (scs : list scope) : list site -> expr -> stop -> Prop :=
| af_sub act c err : call_fails w nm scs act c err -> arg_fails w nm scs act (ESub c) err
with args_fail (w : world) (nm : str) (scs : list scope) : list site -> list expr -> stop -> Prop :=
| asf_here act x xs err : arg_fails w nm scs act x err -> args_fail w nm scs act (x :: xs) err
| asf_later act x xs v err : arg_value w scs act x v -> args_fail w nm scs act xs err -> args_fail w nm scs act (x :: xs) err
with hash_fails (w : world) (nm : str) (scs : list scope) : list site -> list (str * expr) -> stop -> Prop :=
| hf_one act pre k x post pairs pairs' err :
    hash_value w scs act pre pairs -> arg_fails w nm scs act x err -> hash_value w scs act post pairs' ->
    hash_fails w nm scs act (pre ++ (k, x) :: post) err
(** running helper [f] under the name [n] *)
with helper_call_fails (w : world) (nm : str) (scs : list scope)
  : list site -> bool -> str -> helper -> list expr -> list (str * expr) -> option str -> option (str * json) -> stop -> Prop :=
| hc_cycle act blk n f xs hs text prop : 32 <= count_site (site_of blk n) act ->
    helper_call_fails w nm scs act blk n f xs hs text prop (Fails (EHelperCycle n))
| hc_arg act blk n f xs hs text prop err : count_site (site_of blk n) act < 32 -> args_fail w nm scs (site_of blk n :: act) xs err ->
    helper_call_fails w nm scs act blk n f xs hs text prop err
| hc_hash act blk n f xs hs text prop vs err : count_site (site_of blk n) act < 32 -> args_value w scs (site_of blk n :: act) xs vs ->
    hash_fails w nm scs (site_of blk n :: act) hs err -> helper_call_fails w nm scs act blk n f xs hs text prop err
| hc_run act blk n f xs hs text prop err : helper_call w scs act blk n f xs hs text prop (halt err) ->
    helper_call_fails w nm scs act blk n f xs hs text prop err
with call_fails (w : world) (nm : str) (scs : list scope) : list site -> callx -> stop -> Prop :=
| cf_helper act h t xs hs n f err : called w scs h t n f -> helper_call_fails w nm scs act false n f xs hs None None err ->
    call_fails w nm scs act (Call h t xs hs) err
(** in strict mode a variable must exist (an argument need not) *)
| cf_strict act h t xs hs : not_helper w h t -> no_value (w_data w) scs h t -> ~ explicit h -> rg_strict (w_reg w) = true ->
    ((exists n, names h t n) -> rg_missing (w_reg w) = None) ->
    call_fails w nm scs act (Call h t xs hs) (Fails (EVariableNotFound (path_shown h t) nm)).

(** a branch condition that cannot be evaluated, after conditions that do not hold *)
Inductive cond_breaks (w : world) (nm : str) (scs : list scope) (act : list site) (bs : list branch) (err : stop) : Prop :=
| cond_break pre b post c : bs = pre ++ b :: post -> Forall (cond_fails w scs act) pre -> br_cond b = Some c -> call_fails w nm scs act c err ->
    cond_breaks w nm scs act bs err.

(** there is a template for the partial [n], [pb] being the content of the partial block *)
Definition known_partial (w : world) (pb : option (list item)) (n : str) : Prop :=
  (n = lit "@partial-block" /\ pb <> None) \/ assoc n (rg_templates (w_reg w)) <> None.
(** the partial [n] cannot be entered: it is already being rendered, it is unknown, or an argument fails (the hash arguments come first) *)
Inductive include_fails (w : world) (nm : str) (scs : list scope) (act : list site) (pb : option (list item)) (n : str) (xs : list expr) (hs : list (str * expr)) : stop -> Prop :=
| inf_cycle : In (SPartial n) act -> include_fails w nm scs act pb n xs hs (Fails (EPartialCycle n))
| inf_unknown : ~ In (SPartial n) act -> ~ known_partial w pb n -> include_fails w nm scs act pb n xs hs (Fails (EPartialNotFound n))
| inf_hash err : ~ In (SPartial n) act -> known_partial w pb n -> hash_fails w nm scs (SPartial n :: act) hs err ->
    include_fails w nm scs act pb n xs hs err
| inf_args pairs err : ~ In (SPartial n) act -> known_partial w pb n -> hash_value w scs (SPartial n :: act) hs pairs ->
    args_fail w nm scs (SPartial n :: act) xs err -> include_fails w nm scs act pb n xs hs err.

(** [item_err w nm scs act pb s e i out err]: item [i] writes [out], then stops with [err] *)
Inductive item_err (w : world) (nm : str) : list scope -> list site -> option (list item) -> bool -> bool -> item -> str -> stop -> Prop :=
| ie_call scs act pb s e triple m c err : call_fails w nm scs act c err -> item_err w nm scs act pb s e (ICall triple m false c) [] err
| ie_dyn scs act pb s e triple m p c xs hs err : call_fails w nm scs act c err -> item_err w nm scs act pb s e (IDyn triple m p c xs hs) [] err
| ie_link_cycle scs act pb s e parts f : pl_links (w_plat w) = true -> rg_link (w_reg w) = Some f ->
    32 <= count_site (SHelper (lit "link")) act ->
    item_err w nm scs act pb s e (ILink false parts) [] (Fails (EHelperCycle (lit "link")))
| ie_link scs act pb s e parts f err : pl_links (w_plat w) = true -> rg_link (w_reg w) = Some f ->
    count_site (SHelper (lit "link")) act < 32 ->
    acts w scs f (lit "link") [JStr (link_arg parts 0); JStr (link_arg parts 1); JStr (link_arg parts 2)] [] None None false (halt err) ->
    item_err w nm scs act pb s e (ILink false parts) [] err
| ie_raw scs act pb s e n xs hs m x m' f y err :
    assoc n (rg_helpers (w_reg w)) = Some f -> stripped (tl_after m) (tl_before m') x y ->
    helper_call_fails w nm scs act true n f xs hs (Some y) None err ->
    item_err w nm scs act pb s e (IRaw (Call (HdName n) [] xs hs) m x m') [] err
(** partials *)
| ie_partial_identifier scs act pb s e triple m h t xs hs :
    (forall n, ~ names h t n) -> path_shown h t <> lit "@partial-block" ->
    item_err w nm scs act pb s e (ICall triple m true (Call h t xs hs)) [] (Fails (EPartialIdentifier (path_shown h t)))
| ie_partial_enter scs act pb s e triple m h t xs hs n err : partial_name h t n -> include_fails w nm scs act pb n xs hs err ->
    item_err w nm scs act pb s e (ICall triple m true (Call h t xs hs)) [] err
| ie_partial scs act pb s e triple m h t xs hs n d sc out err :
    partial_name h t n -> ~ In (SPartial n) act -> partial_source w pb n d -> partial_args w scs act n xs hs sc ->
    items_err w nm (sc :: scs) (SPartial n :: act) pb false false d out err ->
    item_err w nm scs act pb s e (ICall triple m true (Call h t xs hs)) out err
| ie_dyn_enter scs act pb s e triple m c v xs hs n err :
    call_value w scs act c v -> shown (pl_fstr (w_plat w)) (match v with Some v => v | None => JNull end) n ->
    include_fails w nm scs act pb n xs hs err -> item_err w nm scs act pb s e (IDyn triple m true c xs hs) [] err
| ie_dyn_partial scs act pb s e triple m c v xs hs n d sc out err :
    call_value w scs act c v -> shown (pl_fstr (w_plat w)) (match v with Some v => v | None => JNull end) n ->
    ~ In (SPartial n) act -> partial_source w pb n d -> partial_args w scs act n xs hs sc ->
    items_err w nm (sc :: scs) (SPartial n :: act) pb false false d out err ->
    item_err w nm scs act pb s e (IDyn triple m true c xs hs) out err
| ie_partial_block_enter scs act pb s e n xs hs m body bs m' err : include_fails w nm scs act (Some body) n xs hs err ->
    item_err w nm scs act pb s e (IBlock true (Call (HdName n) [] xs hs) m body bs m') [] err
| ie_partial_block scs act pb s e n xs hs m body bs m' d sc out err :
    ~ In (SPartial n) act -> partial_source w (Some body) n d -> partial_args w scs act n xs hs sc ->
    items_err w nm (sc :: scs) (SPartial n :: act) (Some body) false false d out err ->
    item_err w nm scs act pb s e (IBlock true (Call (HdName n) [] xs hs) m body bs m') out err
(** a block helper that cannot be run: too many calls in progress, an argument that fails, or a failure of its own
    (such as the wrong number of arguments for [if], [unless], [with] and [each]) *)
| ie_block_helper scs act pb s e n xs hs m body bs m' f err :
    assoc n (rg_helpers (w_reg w)) = Some f -> helper_call_fails w nm scs act true n f xs hs None None err ->
    item_err w nm scs act pb s e (IBlock false (Call (HdName n) [] xs hs) m body bs m') [] err
| ie_if scs act pb s e x hs m body bs m' v out err :
    block_arg w scs act (lit "if") x hs v -> ~ falsy v ->
    items_err w nm scs (SBlock (lit "if") :: act) pb (tl_after m) (tl_before (next_tag bs m')) body out err ->
    item_err w nm scs act pb s e (IBlock false (Call (HdName (lit "if")) [] [x] hs) m body bs m') out err
| ie_if_else scs act pb s e x hs m body bs m' v out err :
    block_arg w scs act (lit "if") x hs v -> falsy v -> else_err w nm scs (SBlock (lit "if") :: act) pb bs m' out err ->
    item_err w nm scs act pb s e (IBlock false (Call (HdName (lit "if")) [] [x] hs) m body bs m') out err
| ie_unless scs act pb s e x hs m body bs m' v out err :
    block_arg w scs act (lit "unless") x hs v -> falsy v ->
    items_err w nm scs (SBlock (lit "unless") :: act) pb (tl_after m) (tl_before (next_tag bs m')) body out err ->
    item_err w nm scs act pb s e (IBlock false (Call (HdName (lit "unless")) [] [x] hs) m body bs m') out err
| ie_unless_else scs act pb s e x hs m body bs m' v out err :
    block_arg w scs act (lit "unless") x hs v -> ~ falsy v -> else_err w nm scs (SBlock (lit "unless") :: act) pb bs m' out err ->
    item_err w nm scs act pb s e (IBlock false (Call (HdName (lit "unless")) [] [x] hs) m body bs m') out err
| ie_with scs act pb s e x hs m body bs m' v out err :
    block_arg w scs act (lit "with") x hs v -> v <> JNull ->
    items_err w nm (mkScope (Some v) [] :: scs) (SBlock (lit "with") :: act) pb (tl_after m) (tl_before (next_tag bs m')) body out err ->
    item_err w nm scs act pb s e (IBlock false (Call (HdName (lit "with")) [] [x] hs) m body bs m') out err
| ie_each scs act pb s e x hs m body bs m' v its out err :
    block_arg w scs act (lit "each") x hs v -> iterations_of v its ->
    rounds_err w nm its scs (SBlock (lit "each") :: act) pb (tl_after m) (tl_before (next_tag bs m')) body out err ->
    item_err w nm scs act pb s e (IBlock false (Call (HdName (lit "each")) [] [x] hs) m body bs m') out err
(** a block whose name is no helper *)
| ie_block scs act pb s e n xs hs m body bs m' v out err :
    assoc n (rg_helpers (w_reg w)) = None -> rg_block_missing (w_reg w) = None -> path_value (w_data w) scs (HdName n) [] v ->
    items_err w nm scs act pb (tl_after m) (tl_before (next_tag bs m')) body out err ->
    item_err w nm scs act pb s e (IBlock false (Call (HdName n) [] xs hs) m body bs m') out err
| ie_block_strict scs act pb s e n xs hs m body bs m' :
    assoc n (rg_helpers (w_reg w)) = None -> rg_missing (w_reg w) = None -> rg_strict (w_reg w) = true -> no_value (w_data w) scs (HdName n) [] ->
    item_err w nm scs act pb s e (IBlock false (Call (HdName n) [] xs hs) m body bs m') [] (Fails (EHelperNotFound n))
| ie_block_handler scs act pb s e n xs hs m body bs m' v f err :
    assoc n (rg_helpers (w_reg w)) = None -> path_value (w_data w) scs (HdName n) [] v -> rg_block_missing (w_reg w) = Some f ->
    helper_call_fails w nm scs act true (lit "blockHelperMissing") f xs hs None (Some (n, v)) err ->
    item_err w nm scs act pb s e (IBlock false (Call (HdName n) [] xs hs) m body bs m') [] err
| ie_block_missing_handler scs act pb s e n xs hs m body bs m' f err :
    assoc n (rg_helpers (w_reg w)) = None -> no_value (w_data w) scs (HdName n) [] -> rg_missing (w_reg w) = Some f ->
    helper_call_fails w nm scs act false (lit "helperMissing") f xs hs None None err ->
    item_err w nm scs act pb s e (IBlock false (Call (HdName n) [] xs hs) m body bs m') [] err
(** a block helper (or handler) that takes steps of which one stops *)
| ie_own scs act pb s e n xs hs m body bs m' name f prop vs pairs ps l v out err :
    block_by w scs n name f prop -> count_site (SBlock name) act < 32 ->
    args_value w scs (SBlock name :: act) xs vs -> hash_value w scs (SBlock name :: act) hs pairs -> map_of ps pairs ->
    performs w scs f name vs ps prop l v ->
    renderings l <= 1 \/ tl_after m = true \/ (quiet_body w body /\ Forall (fun b => quiet_body w (br_body b)) bs) ->
    steps_err w nm (SBlock name :: act) pb m body bs m' scs l out err ->
    item_err w nm scs act pb s e (IBlock false (Call (HdName n) [] xs hs) m body bs m') out err
(** the items before the one that stops have written their text *)
with items_err (w : world) (nm : str) : list scope -> list site -> option (list item) -> bool -> bool -> list item -> str -> stop -> Prop :=
| err_here scs act pb s e i l out err : item_err w nm scs act pb s (next_before e l) i out err -> items_err w nm scs act pb s e (i :: l) out err
| err_later scs act pb pb1 s e i l o out err :
    item_out w scs act pb pb1 s (next_before e l) i o -> items_err w nm scs act pb1 (after i) e l out err -> items_err w nm scs act pb s e (i :: l) (o ++ out) err
with rounds_err (w : world) (nm : str) : list scope -> list scope -> list site -> option (list item) -> bool -> bool -> list item -> str -> stop -> Prop :=
| round_here sc its scs act pb s e l out err : items_err w nm (sc :: scs) act pb s e l out err -> rounds_err w nm (sc :: its) scs act pb s e l out err
| round_later sc its scs act pb pb1 s e l o out err :
    items_out w (sc :: scs) act pb pb1 s e l o -> rounds_err w nm its scs act pb1 s e l out err -> rounds_err w nm (sc :: its) scs act pb s e l (o ++ out) err
(** in place of the block: a condition stops, or the selected branch *)
with else_err (w : world) (nm : str) : list scope -> list site -> option (list item) -> list branch -> tildes -> str -> stop -> Prop :=
| else_err_cond scs act pb bs m' err : cond_breaks w nm scs act bs err -> else_err w nm scs act pb bs m' [] err
| else_err_body scs act pb bs m' b post out err :
    else_branch w scs act bs (Some (b, post)) ->
    items_err w nm scs act pb (tl_after (br_tildes b)) (tl_before (next_tag post m')) (br_body b) out err -> else_err w nm scs act pb bs m' out err
(** the steps before the one that stops have been taken; see [steps_out] *)
with steps_err (w : world) (nm : str) : list site -> option (list item) -> tildes -> list item -> list branch -> tildes -> list scope -> list hstep -> str -> stop -> Prop :=
| fall_stop act pb m body bs m' cur err l : steps_err w nm act pb m body bs m' cur (Halt err :: l) [] (Fails err)
| fall_say act pb m body bs m' cur x esc l o err :
    solid x -> steps_err w nm act pb m body bs m' cur l o err -> steps_err w nm act pb m body bs m' cur (Say x esc :: l) ((if esc then written (rg_escape (w_reg w)) x else x) ++ o) err
| fall_put act pb m body bs m' cur x l o err :
    steps_err w nm act pb m body bs m' cur l o err -> steps_err w nm act pb m body bs m' cur (Put x :: l) (x ++ o) err
| fall_show act pb m body bs m' cur l o err :
    items_err w nm cur act pb (tl_after m) (tl_before (next_tag bs m')) body o err -> steps_err w nm act pb m body bs m' cur (Show :: l) o err
| fall_shown act pb pb1 m body bs m' cur l o o' err :
    items_out w cur act pb pb1 (tl_after m) (tl_before (next_tag bs m')) body o -> steps_err w nm act pb1 m body bs m' cur l o' err ->
    steps_err w nm act pb m body bs m' cur (Show :: l) (o ++ o') err
| fall_else act pb m body bs m' cur l o err :
    else_err w nm cur act pb bs m' o err -> steps_err w nm act pb m body bs m' cur (Otherwise :: l) o err
| fall_elsed act pb pb1 m body bs m' cur r l o o' err :
    else_branch w cur act bs r -> else_out w cur act pb pb1 m' r o -> steps_err w nm act pb1 m body bs m' cur l o' err ->
    steps_err w nm act pb m body bs m' cur (Otherwise :: l) (o ++ o') err
| fall_enter act pb m body bs m' cur sc l o err :
    steps_err w nm act pb m body bs m' (sc :: cur) l o err -> steps_err w nm act pb m body bs m' cur (Enter sc :: l) o err
| fall_alter act pb m body bs m' cur sc g l o err :
    steps_err w nm act pb m body bs m' (g sc :: cur) l o err -> steps_err w nm act pb m body bs m' (sc :: cur) (Alter g :: l) o err
| fall_leave act pb m body bs m' cur sc l o err :
    steps_err w nm act pb m body bs m' cur l o err -> steps_err w nm act pb m body bs m' (sc :: cur) (Leave :: l) o err.

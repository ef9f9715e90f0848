
(** ** Hand-written: tests that define helpers *)
Definition h_foo : helper := fun _ _ => HRet (Some (JStr (lit "bar"))).
Definition h_block : helper := fun _ t =>
  HRegister (lit "foo") h_foo
    (match t with
     | Some t => HTemplate t (htry (fun _ => HUnregister (lit "foo") (HRet None)))
     | None => HUnregister (lit "foo") (HRet None)
     end).
Definition h_missing : helper := fun _ _ => HWrite (lit "bar") false (htry (fun _ => HRet None)).
Definition h_block_missing : helper := fun c _ =>
  match hc_property c with
  | Some (_, JStr s) => HWrite s false (htry (fun _ => HRet None))
  | _ => HPanic
  end.
Definition h_eval : helper := fun _ _ => HEval (lit "@root.foo") (htry (fun v => HRet v)).
Definition h_raw : helper := fun c _ =>
  match hc_text c with Some s => HWrite s false (htry (fun _ => HRet None)) | None => HRet None end.
Definition h_link : helper := fun c _ =>
  with_arity c 3 3 (htry (fun a => htry (fun b => htry (fun d =>
    match a, b, d with
    | JStr href, JStr label, JStr title =>
        let label := match label with [] => href | _ => label end in
        let title := match title with [] => label | _ => title end in
        HWrite (lit "<a href=""" ++ html href ++ lit """ title=""" ++ html title ++ lit """>" ++ html label
                ++ lit "</a>") false (htry (fun _ => HRet None))
    | _, _, _ => HPanic
    end) (ctx_try_get c 2 [TyString])) (ctx_try_get c 1 [TyString])) (ctx_try_get c 0 [TyString])).

Definition jfoo (s : string) : json := JObj [(lit "foo", JStr (lit s))].
(** tests/helper.rs *)
Example t_helper_value : once (helper_insert (lit "foo") h_foo reg0) (lit "{{foo}}") (jfoo "qux") = AOk (lit "bar").
Proof. vm_compute. reflexivity. Qed.
Example t_helper_this : once (helper_insert (lit "foo") h_foo reg0) (lit "{{this.foo}}") (jfoo "qux") = AOk (lit "qux").
Proof. vm_compute. reflexivity. Qed.
Example t_helper_dot : once (helper_insert (lit "foo") h_foo reg0) (lit "{{./foo}}") (jfoo "qux") = AOk (lit "qux").
Proof. vm_compute. reflexivity. Qed.
Example t_helper_block :
  once (helper_insert (lit "block") h_block reg0) (lit "{{#block}}{{foo}}{{/block}}") (jfoo "qux") = AOk (lit "bar").
Proof. vm_compute. reflexivity. Qed.
Example t_helper_missing : once (set_missing (Some h_missing) reg0) (lit "{{baz}}") (JObj []) = AOk (lit "bar").
Proof. vm_compute. reflexivity. Qed.
Example t_block_helper_missing :
  once (set_block_missing (Some h_block_missing) reg0) (lit "{{#block}}{{foo}}{{/block}}")
    (JObj [(lit "block", JStr (lit "bar"))]) = AOk (lit "bar").
Proof. vm_compute. reflexivity. Qed.
(** tests/evaluate.rs, tests/raw_block.rs *)
Example t_eval : once (helper_insert (lit "eval") h_eval reg0) (lit "{{eval}}") (jfoo "bar") = AOk (lit "bar").
Proof. vm_compute. reflexivity. Qed.
Example t_raw_helper :
  once (helper_insert (lit "raw-helper") h_raw reg0) (lit "{{{{raw-helper}}}}foo{{{{/raw-helper}}}}") (JObj [])
  = AOk (lit "foo").
Proof. vm_compute. reflexivity. Qed.
(** tests/defaults.rs strict *)
Example t_strict_stmt : once (set_strict true reg0) (lit "foo{{qux}}bar") (JObj [])
  = AErr (XRender (EVariableNotFound (lit "qux") (lit "t"))).
Proof. vm_compute. reflexivity. Qed.
Example t_strict_block : once (set_strict true reg0) (lit "foo{{#qux}}baz{{/qux}}bar") (JObj [])
  = AErr (XRender (EHelperNotFound (lit "qux"))).
Proof. vm_compute. reflexivity. Qed.
(** tests/link.rs *)
Definition regl := set_link (Some h_link) reg0.
Example t_link_href : once regl (lit "[[SomeTarget|Label & Info|Title Label]]") (JObj [])
  = AOk (lit "<a href=""SomeTarget"" title=""Title Label"">Label &amp; Info</a>").
Proof. vm_compute. reflexivity. Qed.
Example t_link_pipe : once regl (lit "[[Some\|Target|Label & Info]]") (JObj [])
  = AOk (lit "<a href=""Some|Target"" title=""Label &amp; Info"">Label &amp; Info</a>").
Proof. vm_compute. reflexivity. Qed.
Example t_link_pipe_label : once regl (lit "[[Some\|Target|Label\|Info]]") (JObj [])
  = AOk (lit "<a href=""Some|Target"" title=""Label|Info"">Label|Info</a>").
Proof. vm_compute. reflexivity. Qed.
Example t_link_bracket : once regl (lit "[[Some\]Target|Label & Info]]") (JObj [])
  = AOk (lit "<a href=""Some]Target"" title=""Label &amp; Info"">Label &amp; Info</a>").
Proof. vm_compute. reflexivity. Qed.
Example t_link_bracket_label : once regl (lit "[[Some\]Target|Label\]Info]]") (JObj [])
  = AOk (lit "<a href=""Some]Target"" title=""Label]Info"">Label]Info</a>").
Proof. vm_compute. reflexivity. Qed.
Example t_link_newline : once regl (lit "[[Some\nTarget|Label & Info]]") (JObj [])
  = AOk (lit "<a href=""Some" ++ [10%N] ++ lit "Target"" title=""Label &amp; Info"">Label &amp; Info</a>").
Proof. vm_compute. reflexivity. Qed.
Example t_link_newline_label : once regl (lit "[[Some\nTarget|Label\nInfo]]") (JObj [])
  = AOk (lit "<a href=""Some" ++ [10%N] ++ lit "Target"" title=""Label" ++ [10%N] ++ lit "Info"">Label"
         ++ [10%N] ++ lit "Info</a>").
Proof. vm_compute. reflexivity. Qed.

(** ** Parsing: tests/slice.rs, tests/lines.rs, tests/parser.rs *)
Definition nodes_of (src : str) : option (list node) :=
  match compile pe0 (mkOpts (lit "t") 0 0) src with POk (NDoc ns) _ => Some ns | _ => None end.
Definition strs (src : str) : option (list (option str)) :=
  match nodes_of src with Some ns => Some (map (node_str src) ns) | None => None end.
Definition whole (s : string) : bool :=
  match strs (lit s) with Some [Some x] => streq x (lit s) | _ => false end.
Example t_slices : forallb whole
  ["{{foo}}"; "{{{foo}}}"; "{{~foo~}}"; "{{#if true}}{{foo}}{{/if}}"; "{{{{raw}}}}{{foo}}{{{{/raw}}}}"; "{{!foo}}";
   "{{!-- foo --}}"]%string = true.
Proof. vm_compute. reflexivity. Qed.
Example t_slice_interspersed :
  strs (lit "bar {{foo}} qux") = Some [Some (lit "bar "); Some (lit "{{foo}}"); Some (lit " qux")].
Proof. vm_compute. reflexivity. Qed.
Definition path1 (s : string) : option str :=
  match nodes_of (lit s) with
  | Some [NStmt c] => match c_target c with TPath p => path_str (lit s) p | _ => None end
  | _ => None
  end.
Example t_slice_paths :
  map path1 ["{{foo}}"; "{{foo.bar.qux}}"; "{{@root.foo}}"; "{{../../../foo/bar.txt}}"]%string
  = map Some [lit "foo"; lit "foo.bar.qux"; lit "@root.foo"; lit "../../../foo/bar.txt"].
Proof. vm_compute. reflexivity. Qed.
Definition lines_of (src : str) : option (list span) :=
  match nodes_of src with
  | Some ns => Some (map (fun n => match n with
                                   | NText t => tx_line t
                                   | NStmt c => c_line c
                                   | NBlock b => b_line b
                                   | NRawStmt t | NRawComment t | NComment t => tx_line (tb_text t)
                                   | _ => (0, 0)
                                   end) ns)
  | None => None
  end.
Example t_lines_text : lines_of (lit "This is some text
that spans multiple lines
so we can check the line range.") = Some [(0, 3)].
Proof. vm_compute. reflexivity. Qed.
Example t_lines_comment : lines_of (lit "{{!
This is a comment that spans multiple lines.
}}") = Some [(0, 3)].
Proof. vm_compute. reflexivity. Qed.
Example t_lines_raw_comment : lines_of (lit "{{!--
This is a raw comment that spans multiple lines.
--}}") = Some [(0, 3)].
Proof. vm_compute. reflexivity. Qed.
Example t_lines_call_single : lines_of (lit "{{
foo.bar.qux
}}") = Some [(0, 3)].
Proof. vm_compute. reflexivity. Qed.
Example t_lines_call_multi : lines_of (lit "{{
foo
""message""
true
}}") = Some [(0, 5)].
Proof. vm_compute. reflexivity. Qed.
Example t_lines_raw_block : lines_of (lit "{{{{raw}}}}
This is some text in a raw block.
{{{{/raw}}}}") = Some [(0, 3)].
Proof. vm_compute. reflexivity. Qed.
Example t_lines_block : lines_of (lit "{{#block}}
This is some text in a block statement.

If can have other {{foo}} statements.
{{/block}}") = Some [(0, 5)].
Proof. vm_compute. reflexivity. Qed.
Definition args1 (s : string) : option (list json) :=
  match nodes_of (lit s) with
  | Some [NStmt c] => Some (map (fun p => match p with VJson v _ _ => v | _ => JNull end) (c_args c))
  | _ => None
  end.
Example t_args : args1 "{{foo ""bar"" true false null 10 -10}}"
  = Some [JStr (lit "bar"); JBool true; JBool false; JNull; JNum (PosInt 10); JNum (NegInt (-10))].
Proof. vm_compute. reflexivity. Qed.

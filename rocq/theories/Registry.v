(** * Registry: model of /repo/src/registry.rs and src/template.rs.  No proofs in this file. *)
From Coq Require Import String.
From Verif Require Import Str Json Ast ErrInfo Parser Render Helpers.
Open Scope nat_scope. Open Scope list_scope.

(** src/error/mod.rs:19-33 [Error] *)
Inductive error :=
| XSyntax (e : syntax_error)
| XRender (e : rerr)
| XNotFound (name : str)
| XIo (kind : nat).

(** src/error/mod.rs:19-33 [Display for Error] *)
Definition error_msg (io_text : nat -> str) (e : error) : str :=
  match e with
  | XSyntax e => any_msg io_text (AnySyntax e)
  | XRender e => rerr_msg io_text e
  | XNotFound name => any_msg io_text (AnyTemplateNotFound name)
  | XIo io => any_msg io_text (AnyIo io)
  end.

(** Result of a public operation: [Ok], [Err], panic; [AFuel] when the given fuel is too small. *)
Inductive ares (A : Type) := AOk (a : A) | AErr (e : error) | APanic (p : panic) | AFuel.
Arguments AOk {A}. Arguments AErr {A}. Arguments APanic {A}. Arguments AFuel {A}.

(** src/registry.rs:30-40 [Registry::new] *)
Definition registry_new (pl : plat) : registry :=
  mkReg (builtins (pl_fstr pl)) None None None [] html false.

(** src/registry.rs:43-90 setters and [helpers_mut], [handlers_mut]; src/helper/mod.rs:241-257 [HelperRegistry::insert], [remove] *)
Definition set_strict (b : bool) (r : registry) : registry :=
  mkReg (rg_helpers r) (rg_link r) (rg_missing r) (rg_block_missing r) (rg_templates r) (rg_escape r) b.
Definition set_escape (f : str -> str) (r : registry) : registry :=
  mkReg (rg_helpers r) (rg_link r) (rg_missing r) (rg_block_missing r) (rg_templates r) f (rg_strict r).
Definition set_templates (t : list (str * template)) (r : registry) : registry :=
  mkReg (rg_helpers r) (rg_link r) (rg_missing r) (rg_block_missing r) t (rg_escape r) (rg_strict r).
Definition set_helpers (h : list (str * helper)) (r : registry) : registry :=
  mkReg h (rg_link r) (rg_missing r) (rg_block_missing r) (rg_templates r) (rg_escape r) (rg_strict r).
Definition set_link (h : option helper) (r : registry) : registry :=
  mkReg (rg_helpers r) h (rg_missing r) (rg_block_missing r) (rg_templates r) (rg_escape r) (rg_strict r).
Definition set_missing (h : option helper) (r : registry) : registry :=
  mkReg (rg_helpers r) (rg_link r) h (rg_block_missing r) (rg_templates r) (rg_escape r) (rg_strict r).
Definition set_block_missing (h : option helper) (r : registry) : registry :=
  mkReg (rg_helpers r) (rg_link r) (rg_missing r) h (rg_templates r) (rg_escape r) (rg_strict r).
Definition helper_insert (name : str) (h : helper) (r : registry) : registry :=
  set_helpers (assoc_set name h (rg_helpers r)) r.
Definition helper_remove (name : str) (r : registry) : registry :=
  set_helpers (assoc_del name (rg_helpers r)) r.

(** src/template.rs:39-66 [Template::compile], src/registry.rs:221-231 [Registry::compile] *)
Definition template_compile (pl : plat) (o : popts) (src : str) : ares template :=
  match compile (pl_penv pl) o src with
  | POk n _ => AOk (mkTemplate src n (if streq (po_file o) (lit "unknown") then None else Some (po_file o)))
  | PErr e _ => AErr (XSyntax e)
  | PPanic p => APanic p
  | PFuel => AFuel
  end.
(** src/registry.rs:236-241 [Registry::parse] *)
Definition registry_parse (pl : plat) (name src : str) : ares template :=
  template_compile pl (mkOpts name 0 0) src.

(** src/registry.rs:99-106 [get], [remove] *)
Definition registry_get (name : str) (r : registry) : option template := assoc name (rg_templates r).
Definition registry_remove (name : str) (r : registry) : option template * registry :=
  (assoc name (rg_templates r), set_templates (assoc_del name (rg_templates r)) r).
(** src/registry.rs:109-121 [insert]; on [Err] the registry is left as it was *)
Definition registry_insert (pl : plat) (name src : str) (r : registry) : ares unit * registry :=
  match template_compile pl (mkOpts name 0 0) src with
  | AOk t => (AOk tt, set_templates (assoc_set name t (rg_templates r)) r)
  | AErr e => (AErr e, r)
  | APanic p => (APanic p, r)
  | AFuel => (AFuel, r)
  end.
(** src/registry.rs:127-142 [add], 148-160 [load], 207-216 [read]; [read] is the file system:
    the content of the file or an I/O error kind *)
Definition registry_add (pl : plat) (read : str -> str + nat) (name file : str) (r : registry)
  : ares unit * registry :=
  match read file with
  | inr k => (AErr (XIo k), r)
  | inl content =>
      match template_compile pl (mkOpts file 0 0) content with
      | AOk t => (AOk tt, set_templates (assoc_set name t (rg_templates r)) r)
      | AErr e => (AErr e, r)
      | APanic p => (APanic p, r)
      | AFuel => (AFuel, r)
      end
  end.
Definition registry_load (pl : plat) (read : str -> str + nat) (file : str) (r : registry)
  : ares unit * registry := registry_add pl read file file r.

(** src/registry.rs:170-204 [read_dir]: the entries of the directory in listing order, each either an
    I/O error or (path, is_file, extension, stem) *)
Record dir_entry := mkEntry { de_path : str; de_file : bool; de_ext : option str; de_stem : str }.
Fixpoint read_dir_go (pl : plat) (read : str -> str + nat) (ext : str) (es : list (dir_entry + nat)) (r : registry)
  : ares unit * registry :=
  match es with
  | [] => (AOk tt, r)
  | inr k :: _ => (AErr (XIo k), r)
  | inl e :: es =>
      if de_file e && match de_ext e with Some x => streq x ext | None => false end then
        match registry_add pl read (de_stem e) (de_path e) r with
        | (AOk _, r) => read_dir_go pl read ext es r
        | (x, r) => (x, r)
        end
      else read_dir_go pl read ext es r
  end.
Definition registry_read_dir (pl : plat) (read : str -> str + nat) (listing : list (dir_entry + nat) + nat)
    (ext : str) (r : registry) : ares unit * registry :=
  match listing with
  | inr k => (AErr (XIo k), r)
  | inl es => read_dir_go pl read ext es r
  end.

(** src/template.rs:78-94 [Template::render] into an output: the [write_str] calls made and the result *)
Definition template_render (fuel : nat) (pl : plat) (r : registry) (name : str) (t : tpl) (data : json)
    (w : list str -> str -> wres) (stack : list site) : ares unit * list str :=
  match render_template_go fuel (mkEnv pl r name data w) t stack with
  | ROk _ st => (AOk tt, r_out st)
  | RErr e st => (AErr (XRender e), r_out st)
  | RPanic p => (APanic p, [])
  | RFuel => (AFuel, [])
  end.

(** Collect a [StringOutput]. *)
Definition to_str (x : ares unit * list str) : ares str :=
  match fst x with
  | AOk _ => AOk (concat (snd x))
  | AErr e => AErr e
  | APanic p => APanic p
  | AFuel => AFuel
  end.

(** src/registry.rs:397-411 [render_template] *)
Definition registry_render_template (fuel : nat) (pl : plat) (r : registry) (name : str) (t : template) (data : json)
  : ares str := to_str (template_render fuel pl r name (te_tpl t) data string_writer []).
(** src/registry.rs:414-430 [render_to_write] *)
Definition registry_render_to_write (fuel : nat) (pl : plat) (r : registry) (name : str) (data : json)
    (w : list str -> str -> wres) : ares unit * list str :=
  match assoc name (rg_templates r) with
  | None => (AErr (XNotFound name), [])
  | Some t => template_render fuel pl r name (te_tpl t) data w []
  end.
(** src/registry.rs:386-393 [render] *)
Definition registry_render (fuel : nat) (pl : plat) (r : registry) (name : str) (data : json) : ares str :=
  to_str (registry_render_to_write fuel pl r name data string_writer).
(** src/registry.rs:262-274 [once] *)
Definition registry_once (fuel : nat) (pl : plat) (r : registry) (name src : str) (data : json) : ares str :=
  match template_compile pl (mkOpts name 0 0) src with
  | AOk t => to_str (template_render fuel pl r name (te_tpl t) data string_writer [])
  | AErr e => AErr e
  | APanic p => APanic p
  | AFuel => AFuel
  end.
(** src/registry.rs:244-258 [lint] *)
Definition registry_lint (pl : plat) (name src : str) : ares (list error) :=
  match lint (pl_penv pl) name src with
  | POk es _ => AOk (map XSyntax es)
  | PErr e _ => AErr (XSyntax e)
  | PPanic p => APanic p
  | PFuel => AFuel
  end.

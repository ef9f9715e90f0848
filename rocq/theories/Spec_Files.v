(** * Spec_Files: the vocabulary of the properties about loading templates from files (C60).  No proofs in this file. *)
From Coq Require Import String.
From Verif Require Import Str Json Ast ErrInfo Parser Render Registry.
Open Scope nat_scope. Open Scope list_scope.

Section Files.
Variables (pl : plat) (read : str -> str + nat).

(** the file at [path] can be read and is the template [t] *)
Definition file_gives (path : str) (t : template) : Prop :=
  exists content, read path = inl content /\ registry_parse pl path content = AOk t.
(** the file cannot be loaded, for this reason *)
Definition file_fails (path : str) (x : ares unit) : Prop :=
  (exists kind, read path = inr kind /\ x = AErr (XIo kind))
  \/ (exists content, read path = inl content
        /\ match registry_parse pl path content with
           | AOk _ => False | AErr e => x = AErr e | APanic p => x = APanic p | AFuel => x = AFuel
           end).
(** a directory entry that is to be loaded: a regular file with that extension *)
Definition wanted (ext : str) (e : dir_entry) : Prop := de_file e = true /\ de_ext e = Some ext.

(** the templates a directory listing gives, in order, up to the first problem *)
Inductive loads (ext : str) : list (dir_entry + nat) -> list (str * template) -> ares unit -> Prop :=
| loads_end : loads ext [] [] (AOk tt)
| loads_skip e es l x : ~ wanted ext e -> loads ext es l x -> loads ext (inl e :: es) l x
| loads_take e es t l x : wanted ext e -> file_gives (de_path e) t -> loads ext es l x -> loads ext (inl e :: es) ((de_stem e, t) :: l) x
| loads_fail e es x : wanted ext e -> file_fails (de_path e) x -> loads ext (inl e :: es) [] x
| loads_io kind es : loads ext (inr kind :: es) [] (AErr (XIo kind)).
End Files.

(** [r'] is [r] with the templates of [l] added in order: under each name the last one, everything else as before *)
Definition with_templates (r r' : registry) (l : list (str * template)) : Prop :=
  (forall name, (~ In name (map fst l) -> registry_get name r' = registry_get name r)
             /\ (forall l1 t l2, l = l1 ++ (name, t) :: l2 -> ~ In name (map fst l2) -> registry_get name r' = Some t))
  /\ rg_helpers r' = rg_helpers r /\ rg_link r' = rg_link r /\ rg_missing r' = rg_missing r /\ rg_block_missing r' = rg_block_missing r
  /\ rg_escape r' = rg_escape r /\ rg_strict r' = rg_strict r.

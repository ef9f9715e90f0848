(** * Json: serde_json values and the helpers of /repo/src/json.rs.  No proofs in this file. *)
From Coq Require Import String.
From Coq Require Export SpecFloat.
From Verif Require Import Str.
Open Scope nat_scope. Open Scope list_scope.

(** serde_json [Number] (no arbitrary_precision): unsigned, negative, or finite f64. *)
Inductive number := PosInt (n : N) | NegInt (z : Z) | Flt (f : spec_float).

(** serde_json [Value]; objects are BTreeMaps (feature preserve_order is off), modelled as
    association lists kept sorted by key. *)
Inductive json :=
| JNull
| JBool (b : bool)
| JNum (n : number)
| JStr (s : str)
| JArr (l : list json)
| JObj (l : list (str * json)).

(** [Map::insert] on a sorted association list. *)
Fixpoint obj_insert {A} (k : str) (v : A) (l : list (str * A)) : list (str * A) :=
  match l with
  | [] => [(k, v)]
  | (k', v') :: l' =>
      match strcmp k k' with
      | Lt => (k, v) :: l
      | Eq => (k, v) :: l'
      | Gt => (k', v') :: obj_insert k v l'
      end
  end.

(** [Number::from::<usize>]. *)
Definition num_of_nat (n : nat) : json := JNum (PosInt (N.of_nat n)).

(** f64 constants: precision 53, emax 1024. *)
Definition f64_of_Z (z : Z) : spec_float := binary_normalize 53 1024 z 0 false.
(** [Number::as_f64]: always [Some]. *)
Definition as_f64 (n : number) : spec_float :=
  match n with
  | PosInt n => f64_of_Z (Z.of_N n)
  | NegInt z => f64_of_Z z
  | Flt f => f
  end.

(** ** Number literals: [str.parse::<Number>()], used by /repo/src/parser/call.rs:54-57.
    Integer lexemes are exact; [other] is the oracle for everything that goes through serde_json's
    floating point path (fractions, exponents, integers out of range, "-0"); [None] = parse error. *)
Definition parse_number (other : str -> option number) (s : str) : option number :=
  let '(neg, ds) := match s with
                    | c :: s' => if (c =? 45)%N then (true, s') else (false, s)
                    | [] => (false, s)
                    end in
  match ds with
  | [] => None
  | d :: rest =>
      if (d =? 48)%N && match rest with c :: _ => is_digit c | [] => false end then None
      else if all_digits ds then
        let v := digits_val ds in
        if neg then
          if (0 <? v)%N && (v <=? 9223372036854775808)%N then Some (NegInt (- Z.of_N v)%Z)
          else other s
        else if (v <? 18446744073709551616)%N then Some (PosInt v) else other s
      else other s
  end.

(** ** Serialisation ([Value::to_string], serde_json CompactFormatter / PrettyFormatter). *)
Definition hexdigit (n : N) : chr := if (n <? 10)%N then (48 + n)%N else (87 + n)%N.
(** serde_json ser.rs format_escaped_str_contents *)
Definition json_escape_c (c : chr) : str :=
  if (c =? 34)%N then [92; 34]%N
  else if (c =? 92)%N then [92; 92]%N
  else if (c =? 8)%N then [92; 98]%N
  else if (c =? 9)%N then [92; 116]%N
  else if (c =? 10)%N then [92; 110]%N
  else if (c =? 12)%N then [92; 102]%N
  else if (c =? 13)%N then [92; 114]%N
  else if (c <? 32)%N then [92; 117; 48; 48; hexdigit (c / 16); hexdigit (c mod 16)]%N
  else [c].
Definition json_string (s : str) : str := [34%N] ++ flat_map json_escape_c s ++ [34%N].

(** Number display; [fstr] is the oracle for ryu's shortest f64 printing. *)
Definition number_str (fstr : spec_float -> str) (n : number) : str :=
  match n with
  | PosInt n => N_str n
  | NegInt z => Z_str z
  | Flt f => fstr f
  end.

Fixpoint to_string (fstr : spec_float -> str) (v : json) : str :=
  match v with
  | JNull => lit "null"
  | JBool true => lit "true"
  | JBool false => lit "false"
  | JNum n => number_str fstr n
  | JStr s => json_string s
  | JArr l => [91%N] ++ join [44%N] (map (to_string fstr) l) ++ [93%N]
  | JObj l => [123%N] ++ join [44%N] (map (fun kv => json_string (fst kv) ++ [58%N] ++ to_string fstr (snd kv)) l)
              ++ [125%N]
  end.

(** serde_json [to_string_pretty]: two spaces per level. *)
Definition indent (n : nat) : str := repeat_c 32%N (2 * n).
Fixpoint to_pretty (fstr : spec_float -> str) (d : nat) (v : json) : str :=
  match v with
  | JArr [] => lit "[]"
  | JArr l => [91; 10]%N ++ join [44; 10]%N (map (fun x => indent (S d) ++ to_pretty fstr (S d) x) l)
              ++ [10%N] ++ indent d ++ [93%N]
  | JObj [] => lit "{}"
  | JObj l => [123; 10]%N
              ++ join [44; 10]%N (map (fun kv => indent (S d) ++ json_string (fst kv) ++ [58; 32]%N
                                                ++ to_pretty fstr (S d) (snd kv)) l)
              ++ [10%N] ++ indent d ++ [125%N]
  | _ => to_string fstr v
  end.

(** ** /repo/src/json.rs *)

(** src/json.rs:7-14 [stringify] *)
Definition stringify (fstr : spec_float -> str) (v : json) : str :=
  match v with
  | JStr s => s
  | JObj _ => lit "Object"
  | JArr l => lit "Array" ++ [91%N] ++ nat_str (length l) ++ [93%N]
  | _ => to_string fstr v
  end.

(** src/json.rs:16-21 [unquote] *)
Definition unquote (fstr : spec_float -> str) (v : json) : str :=
  match v with
  | JStr s => s
  | _ => to_string fstr v
  end.

(** src/json.rs:52-70 [find_field] *)
Definition find_field (target : json) (field : str) : option json :=
  match target with
  | JObj m => assoc field m
  | JArr l =>
      match parse_usize field with
      | Some i => if (i <? N.of_nat (length l))%N then nth_error l (N.to_nat i) else None
      | None => None
      end
  | _ => None
  end.

(** src/json.rs:24-49 [find_parts]: the while loop after the first [it.next()] *)
Fixpoint find_parts_go (current : json) (parts : list str) : option json :=
  match parts with
  | [] => Some current
  | p :: ps =>
      match find_field current p with
      | Some v => find_parts_go v ps
      | None => None
      end
  end.
Definition find_parts (parts : list str) (doc : json) : option json :=
  match doc with
  | JObj _ | JArr _ =>
      match parts with
      | [] => None                     (* empty iterator: the loop body never runs *)
      | _ => find_parts_go doc parts
      end
  | _ => None
  end.

Definition sf_zero : spec_float := S754_zero false.

(** src/json.rs:72-91 [is_truthy]; is_i64 / is_u64 / is_f64 as in serde_json *)
Definition is_truthy (v : json) : bool :=
  match v with
  | JObj _ => true
  | JArr _ => true
  | JStr s => 0 <? blen s
  | JBool b => b
  | JNum n =>
      match n with
      | PosInt n => negb (n =? 0)%N
      | NegInt z => negb (z =? 0)%Z
      | Flt f => negb (SFeqb f sf_zero)
      end
  | JNull => false
  end.

(** * Spec_Values: what HTML escaping, truthiness and JSON text mean; used by the theorems of Props_Values.
    Independent of the code's own escaping, truthiness and serialisation functions. *)
From Coq Require Import String.
From Verif Require Import Str Json.
Open Scope nat_scope. Open Scope list_scope.

(** ** HTML *)
(** the entities, with the character each stands for *)
Definition entities : list (str * chr) :=
  [(lit "&lt;", 60%N); (lit "&gt;", 62%N); (lit "&quot;", 34%N); (lit "&amp;", 38%N); (lit "&#x27;", 39%N)].
Definition special (c : chr) : Prop := In c (map snd entities).
(** text a browser shows as plain text: ordinary characters and entities *)
Inductive safe_html : str -> Prop :=
| safe_nil : safe_html []
| safe_char c s : ~ special c -> safe_html s -> safe_html (c :: s)
| safe_entity e c s : In (e, c) entities -> safe_html s -> safe_html (e ++ s).
(** what a browser shows: the relation between escaped text and the text it denotes *)
Inductive shows : str -> str -> Prop :=
| shows_nil : shows [] []
| shows_char c s r : ~ special c -> shows s r -> shows (c :: s) (c :: r)
| shows_entity e c s r : In (e, c) entities -> shows s r -> shows (e ++ s) (c :: r).

(** ** Truthiness *)
Definition zero_number (n : number) : Prop :=
  match n with PosInt n => n = 0%N | NegInt z => z = 0%Z | Flt f => exists sign, f = S754_zero sign end.
Definition falsy (v : json) : Prop :=
  v = JNull \/ v = JBool false \/ v = JStr [] \/ exists n, v = JNum n /\ zero_number n.

(** ** JSON text *)
(** A reader for JSON text.  [num] reads a number lexeme. *)
Definition json_ws (c : chr) : bool := (c =? 32)%N || (c =? 10)%N || (c =? 9)%N || (c =? 13)%N.
Fixpoint skip_ws (s : str) : str :=
  match s with c :: s' => if json_ws c then skip_ws s' else s | [] => [] end.
Definition hexval (c : chr) : option N :=
  if (48 <=? c)%N && (c <=? 57)%N then Some (c - 48)%N
  else if (97 <=? c)%N && (c <=? 102)%N then Some (c - 87)%N
  else if (65 <=? c)%N && (c <=? 70)%N then Some (c - 55)%N
  else None.
(** the characters of a string after its opening quote, and what follows the closing quote *)
Fixpoint read_chars (s : str) : option (str * str) :=
  let cons c r := match r with Some (v, rest) => Some (c :: v, rest) | None => None end in
  match s with
  | [] => None
  | c :: s1 =>
      if (c =? 34)%N then Some ([], s1)
      else if (c =? 92)%N then
        match s1 with
        | [] => None
        | e :: s2 =>
            if (e =? 34)%N then cons 34%N (read_chars s2)
            else if (e =? 92)%N then cons 92%N (read_chars s2)
            else if (e =? 47)%N then cons 47%N (read_chars s2)
            else if (e =? 98)%N then cons 8%N (read_chars s2)
            else if (e =? 116)%N then cons 9%N (read_chars s2)
            else if (e =? 110)%N then cons 10%N (read_chars s2)
            else if (e =? 102)%N then cons 12%N (read_chars s2)
            else if (e =? 114)%N then cons 13%N (read_chars s2)
            else if (e =? 117)%N then
              match s2 with
              | a :: b :: c :: d :: s3 =>
                  match hexval a, hexval b, hexval c, hexval d with
                  | Some a, Some b, Some c, Some d => cons (a * 4096 + b * 256 + c * 16 + d)%N (read_chars s3)
                  | _, _, _, _ => None
                  end
              | _ => None
              end
            else None
        end
      else if (c <? 32)%N then None
      else cons c (read_chars s1)
  end.
Definition num_char (c : chr) : bool :=
  is_digit c || (c =? 43)%N || (c =? 45)%N || (c =? 46)%N || (c =? 69)%N || (c =? 101)%N.
Fixpoint read_lexeme (s : str) : str * str :=
  match s with
  | c :: s' => if num_char c then let (l, r) := read_lexeme s' in (c :: l, r) else ([], s)
  | [] => ([], [])
  end.
(** one JSON value and the text after it; elements and members keep their order *)
Fixpoint read_json (num : str -> option number) (fuel : nat) (s : str) : option (json * str) :=
  match fuel with
  | 0 => None
  | S fuel =>
      match skip_ws s with
      | [] => None
      | c :: r =>
          if (c =? 34)%N then match read_chars r with Some (v, rest) => Some (JStr v, rest) | None => None end
          else if (c =? 91)%N then
            match skip_ws r with
            | d :: r' => if (d =? 93)%N then Some (JArr [], r')
                         else match read_items num fuel (d :: r') with Some (l, rest) => Some (JArr l, rest) | None => None end
            | [] => None
            end
          else if (c =? 123)%N then
            match skip_ws r with
            | d :: r' => if (d =? 125)%N then Some (JObj [], r')
                         else match read_members num fuel (d :: r') with Some (l, rest) => Some (JObj l, rest) | None => None end
            | [] => None
            end
          else
            match starts_with (lit "null") (c :: r), starts_with (lit "true") (c :: r), starts_with (lit "false") (c :: r) with
            | true, _, _ => Some (JNull, skipn 4 (c :: r))
            | _, true, _ => Some (JBool true, skipn 4 (c :: r))
            | _, _, true => Some (JBool false, skipn 5 (c :: r))
            | _, _, _ => let (l, rest) := read_lexeme (c :: r) in
                         match num l with Some n => Some (JNum n, rest) | None => None end
            end
      end
  end
with read_items (num : str -> option number) (fuel : nat) (s : str) : option (list json * str) :=
  match fuel with
  | 0 => None
  | S fuel =>
      match read_json num fuel s with
      | Some (v, rest) =>
          match skip_ws rest with
          | c :: r => if (c =? 44)%N then
                        match read_items num fuel r with Some (l, rest) => Some (v :: l, rest) | None => None end
                      else if (c =? 93)%N then Some ([v], r) else None
          | [] => None
          end
      | None => None
      end
  end
with read_members (num : str -> option number) (fuel : nat) (s : str) : option (list (str * json) * str) :=
  match fuel with
  | 0 => None
  | S fuel =>
      match skip_ws s with
      | q :: r =>
          if (q =? 34)%N then
            match read_chars r with
            | Some (k, r1) =>
                match skip_ws r1 with
                | col :: r2 =>
                    if (col =? 58)%N then
                      match read_json num fuel r2 with
                      | Some (v, rest) =>
                          match skip_ws rest with
                          | c :: r3 => if (c =? 44)%N then
                                         match read_members num fuel r3 with Some (l, rest) => Some ((k, v) :: l, rest) | None => None end
                                       else if (c =? 125)%N then Some ([(k, v)], r3) else None
                          | [] => None
                          end
                      | None => None
                      end
                    else None
                | [] => None
                end
            | None => None
            end
          else None
      | [] => None
      end
  end.
(** the numbers inside a value *)
Fixpoint json_numbers (v : json) : list number :=
  match v with
  | JNum n => [n]
  | JArr l => flat_map json_numbers l
  | JObj l => flat_map (fun kv => json_numbers (snd kv)) l
  | _ => []
  end.
(** serde_json's representable integers: u64, and i64 below zero *)
Definition machine_number (n : number) : Prop :=
  match n with
  | PosInt n => (n < 18446744073709551616)%N
  | NegInt z => (-9223372036854775808 <= z < 0)%Z
  | Flt _ => True
  end.
(** the floating-point printer [fstr] writes a number lexeme that the number reader [num] reads back *)
Definition float_round_trip (num : str -> option number) (fstr : spec_float -> str) (f : spec_float) : Prop :=
  num (fstr f) = Some (Flt f)
  /\ Forall (fun c => num_char c = true) (fstr f)
  /\ exists c r, fstr f = c :: r /\ (is_digit c = true \/ c = 45%N).

(** ** Numbers as exact values *)
(** the exact value of a finite double, times 2^1074 (the smallest exponent is -1074) *)
Definition f64_scaled (f : spec_float) : Z :=
  match f with
  | S754_finite s m e => (if s then - (Zpos m) else Zpos m) * 2 ^ (e + 1074)
  | _ => 0
  end%Z.
(** doubles serde_json can hold: finite, in the canonical representation of binary64 *)
Definition finite_f64 (f : spec_float) : Prop :=
  match f with
  | S754_zero _ => True
  | S754_finite _ m e => valid_binary 53 1024 f = true
  | _ => False
  end.
(** numbers whose conversion to a double is exact: integers of at most 53 bits, and doubles *)
Definition exact_number (n : number) : Prop :=
  match n with
  | PosInt n => (n < 2 ^ 53)%N
  | NegInt z => (- 2 ^ 53 < z < 2 ^ 53)%Z
  | Flt f => finite_f64 f
  end.
(** the value a number denotes, times 2^1074 *)
Definition number_scaled (n : number) : Z :=
  match n with
  | PosInt n => Z.of_N n * 2 ^ 1074
  | NegInt z => z * 2 ^ 1074
  | Flt f => f64_scaled f
  end%Z.
(** not a NaN; every number serde_json holds is like this *)
Definition not_nan (n : number) : Prop := n <> Flt S754_nan.

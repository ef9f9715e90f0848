(** * Str: Rust strings as lists of Unicode scalar values with UTF-8 byte offsets.
    Models the parts of Rust's [str] API the crate relies on.  No proofs in this file. *)
From Coq Require Export List NArith ZArith Bool Arith.
From Coq Require Import Ascii String.
Export ListNotations.
Open Scope nat_scope.

(** A Rust [char] is a Unicode scalar value, a [&str] a sequence of them. *)
Definition chr := N.
Definition str := list chr.

(** [char::len_utf8]: number of bytes of the UTF-8 encoding. *)
Definition clen (c : chr) : nat :=
  if (c <? 128)%N then 1
  else if (c <? 2048)%N then 2
  else if (c <? 65536)%N then 3
  else 4.

(** [str::len]: length in bytes. *)
Fixpoint blen (s : str) : nat :=
  match s with [] => 0 | c :: s' => clen c + blen s' end.

(** Drop exactly [n] bytes; [None] when [n] is beyond the end or not on a character boundary. *)
Fixpoint drop_b (n : nat) (s : str) : option str :=
  match n with
  | 0 => Some s
  | _ => match s with
         | [] => None
         | c :: s' => if n <? clen c then None else drop_b (n - clen c) s'
         end
  end.

(** Take exactly [n] bytes; [None] when [n] is beyond the end or not on a character boundary. *)
Fixpoint take_b (n : nat) (s : str) : option str :=
  match n with
  | 0 => Some []
  | _ => match s with
         | [] => None
         | c :: s' => if n <? clen c then None
                      else match take_b (n - clen c) s' with
                           | Some r => Some (c :: r)
                           | None => None
                           end
         end
  end.

(** [&s[a..b]]: [None] is the Rust panic (a > b, b > len, or not on a char boundary). *)
Definition slice (s : str) (a b : nat) : option str :=
  if b <? a then None
  else match drop_b a s with Some r => take_b (b - a) r | None => None end.

(** Equality of strings. *)
Fixpoint streq (a b : str) : bool :=
  match a, b with
  | [], [] => true
  | x :: a', y :: b' => (x =? y)%N && streq a' b'
  | _, _ => false
  end.

(** Literals: an ASCII Coq string as a [str]. *)
Fixpoint lit (s : string) : str :=
  match s with
  | EmptyString => []
  | String a s' => N_of_ascii a :: lit s'
  end.
Arguments lit s%string.

(** Lexicographic order on scalar values; equals Rust's byte order on UTF-8 strings
    ([BTreeMap<String, _>] keys of serde_json's [Map]). *)
Fixpoint strcmp (a b : str) : comparison :=
  match a, b with
  | [], [] => Eq
  | [], _ => Lt
  | _, [] => Gt
  | x :: a', y :: b' =>
      match (x ?= y)%N with Eq => strcmp a' b' | r => r end
  end.

(** [str::starts_with] for string patterns. *)
Fixpoint starts_with (p s : str) : bool :=
  match p, s with
  | [], _ => true
  | x :: p', y :: s' => (x =? y)%N && starts_with p' s'
  | _ :: _, [] => false
  end.

(** [str::ends_with]. *)
Definition ends_with (p s : str) : bool := starts_with (rev p) (rev s).

(** [char::is_whitespace] (Unicode White_Space), used by [str::trim_start]/[trim_end]
    and, in the lexer's regular expressions, by the class [\s]. *)
Definition is_ws (c : chr) : bool :=
  ((9 <=? c) && (c <=? 13) || (c =? 32) || (c =? 133) || (c =? 160) || (c =? 5760)
   || (8192 <=? c) && (c <=? 8202) || (c =? 8232) || (c =? 8233) || (c =? 8239)
   || (c =? 8287) || (c =? 12288))%N.

(** [str::trim_start]. *)
Fixpoint trim_start (s : str) : str :=
  match s with
  | [] => []
  | c :: s' => if is_ws c then trim_start s' else s
  end.

(** [str::trim_end]. *)
Definition trim_end (s : str) : str := rev (trim_start (rev s)).

(** [str::replace] for a two character pattern [a b] and a one character replacement. *)
Fixpoint replace2 (a b r : chr) (s : str) : str :=
  match s with
  | [] => []
  | x :: s' =>
      match s' with
      | y :: s'' => if (x =? a)%N && (y =? b)%N then r :: replace2 a b r s''
                    else x :: replace2 a b r s'
      | [] => [x]
      end
  end.

(** Decimal digits of a natural number ([usize] / [u64] Display). *)
Fixpoint uint_str (d : Decimal.uint) : str :=
  match d with
  | Decimal.Nil => []
  | Decimal.D0 d => 48%N :: uint_str d
  | Decimal.D1 d => 49%N :: uint_str d
  | Decimal.D2 d => 50%N :: uint_str d
  | Decimal.D3 d => 51%N :: uint_str d
  | Decimal.D4 d => 52%N :: uint_str d
  | Decimal.D5 d => 53%N :: uint_str d
  | Decimal.D6 d => 54%N :: uint_str d
  | Decimal.D7 d => 55%N :: uint_str d
  | Decimal.D8 d => 56%N :: uint_str d
  | Decimal.D9 d => 57%N :: uint_str d
  end.
Definition N_str (n : N) : str := uint_str (N.to_uint n).
Definition nat_str (n : nat) : str := N_str (N.of_nat n).
Definition Z_str (z : Z) : str :=
  match z with
  | Z0 => N_str 0
  | Zpos p => N_str (Npos p)
  | Zneg p => 45%N :: N_str (Npos p)
  end.

Definition is_digit (c : chr) : bool := ((48 <=? c) && (c <=? 57))%N.
Definition all_digits (s : str) : bool := forallb is_digit s.

(** Value of a digit string, most significant digit first. *)
Fixpoint digits_acc (acc : N) (s : str) : N :=
  match s with
  | [] => acc
  | c :: s' => digits_acc (acc * 10 + (c - 48))%N s'
  end.
Definition digits_val (s : str) : N := digits_acc 0 s.

(** [str::parse::<usize>()] on a 64 bit target: an optional '+', at least one ASCII digit,
    only digits, no overflow. *)
Definition parse_usize (s : str) : option N :=
  let ds := match s with c :: s' => if (c =? 43)%N then s' else s | [] => s end in
  match ds with
  | [] => None
  | _ => if all_digits ds then
           let v := digits_val ds in
           if (v <? 18446744073709551616)%N then Some v else None
         else None
  end.

(** UTF-8 encoding of a scalar value / string: what [str::as_bytes] hands to a writer. *)
Definition utf8c (c : chr) : list N :=
  if (c <? 128)%N then [c]
  else if (c <? 2048)%N then [192 + c / 64; 128 + c mod 64]%N
  else if (c <? 65536)%N then [224 + c / 4096; 128 + (c / 64) mod 64; 128 + c mod 64]%N
  else [240 + c / 262144; 128 + (c / 4096) mod 64; 128 + (c / 64) mod 64; 128 + c mod 64]%N.
Definition utf8 (s : str) : list N := flat_map utf8c s.

(** [" ".repeat(n)] and similar. *)
Definition repeat_c (c : chr) (n : nat) : str := repeat c n.

(** [slice::join] with a separator. *)
Fixpoint join (sep : str) (l : list str) : str :=
  match l with
  | [] => []
  | [x] => x
  | x :: l' => x ++ sep ++ join sep l'
  end.

(** Association lists keyed by strings (insertion replaces), used for the [HashMap]s. *)
Fixpoint assoc {A} (k : str) (l : list (str * A)) : option A :=
  match l with
  | [] => None
  | (k', v) :: l' => if streq k k' then Some v else assoc k l'
  end.
Fixpoint assoc_set {A} (k : str) (v : A) (l : list (str * A)) : list (str * A) :=
  match l with
  | [] => [(k, v)]
  | (k', v') :: l' => if streq k k' then (k, v) :: l' else (k', v') :: assoc_set k v l'
  end.
Fixpoint assoc_del {A} (k : str) (l : list (str * A)) : list (str * A) :=
  match l with
  | [] => []
  | (k', v') :: l' => if streq k k' then assoc_del k l' else (k', v') :: assoc_del k l'
  end.

(** * Regex: regular expressions over characters and maximal munch.
    Models what the derive macro of the [logos] crate (0.11.4) generates from the
    [regex] / [token] attributes in /repo/src/lexer.rs: among the patterns of an
    enum the longest match wins, ties are resolved by priority.  (That the generated
    automaton has this semantics is part of the trusted base, see DESIGN.md.) *)
From Verif Require Import Str.

Inductive re :=
| REmpty                       (* matches nothing *)
| REps                         (* the empty string *)
| RChr (f : chr -> bool)       (* one character of a class *)
| RCat (a b : re)
| RAlt (a b : re)
| RStar (a : re).

Definition RPlus (r : re) := RCat r (RStar r).
Definition ROpt (r : re) := RAlt REps r.
Fixpoint RLit (s : str) : re :=
  match s with
  | [] => REps
  | [c] => RChr (N.eqb c)
  | c :: s' => RCat (RChr (N.eqb c)) (RLit s')
  end.

Fixpoint nullable (r : re) : bool :=
  match r with
  | REmpty => false
  | REps => true
  | RChr _ => false
  | RCat a b => nullable a && nullable b
  | RAlt a b => nullable a || nullable b
  | RStar _ => true
  end.

Definition mk_cat (a b : re) : re :=
  match a with
  | REmpty => REmpty
  | REps => b
  | _ => match b with REmpty => REmpty | _ => RCat a b end
  end.
Definition mk_alt (a b : re) : re :=
  match a, b with
  | REmpty, _ => b
  | _, REmpty => a
  | _, _ => RAlt a b
  end.

Fixpoint deriv (c : chr) (r : re) : re :=
  match r with
  | REmpty => REmpty
  | REps => REmpty
  | RChr f => if f c then REps else REmpty
  | RCat a b => if nullable a then mk_alt (mk_cat (deriv c a) b) (deriv c b)
                else mk_cat (deriv c a) b
  | RAlt a b => mk_alt (deriv c a) (deriv c b)
  | RStar a => mk_cat (deriv c a) (RStar a)
  end.

(** Length (in characters) of the longest prefix of [s] matched by [r]; [n] characters have
    been consumed already and [best] is the longest match seen so far. *)
Fixpoint longest (r : re) (s : str) (n : nat) (best : option nat) : option nat :=
  let best' := if nullable r then Some n else best in
  match r with
  | REmpty => best'
  | _ => match s with
         | [] => best'
         | c :: s' => longest (deriv c r) s' (S n) best'
         end
  end.

(** Maximal munch over a list of patterns given in order of decreasing priority: the longest
    (non-empty) match, the earliest pattern on ties. *)
Fixpoint munch {A} (pats : list (re * A)) (s : str) : option (A * nat) :=
  match pats with
  | [] => None
  | (r, a) :: pats' =>
      let rest := munch pats' s in
      match longest r s 0 None with
      | Some (S n) =>
          match rest with
          | Some (b, m) => if S n <? m then Some (b, m) else Some (a, S n)
          | None => Some (a, S n)
          end
      | _ => rest
      end
  end.

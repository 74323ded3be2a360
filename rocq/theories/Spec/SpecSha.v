(** SHA-256 as FIPS 180-4 describes it, on words of 32 bits written high-order bit first. The
    constants are given by the property that defines them, not by a table. *)
From Coq Require Import ZArith Znumtheory Bool List.
From Verif.Spec Require Import Spec.
Import ListNotations.
Local Open Scope nat_scope.

Definition word := list bool.

(** The number a bit string stands for, and the word of a number (modulo 2^32). *)
Definition num_of (w : word) : Z := bits_value (rev w).
Definition bits_of (n : nat) (x : Z) : list bool := map (fun i => Z.testbit x (Z.of_nat (n - 1 - i))) (seq 0 n).
Definition plus (x y : word) : word := bits_of 32 (num_of x + num_of y).

(** Section 3.2: rotation and shift to the right. *)
Definition rotate (n : nat) (x : word) : word := skipn (32 - n) x ++ firstn (32 - n) x.
Definition shift (n : nat) (x : word) : word := repeat false n ++ firstn (32 - n) x.

(** Section 4.1.2: the six functions, bit by bit. *)
Definition bitwise3 (f : bool -> bool -> bool -> bool) (x y z : word) : word :=
  map (fun i => f (nth i x false) (nth i y false) (nth i z false)) (seq 0 32).
Definition choose := bitwise3 (fun a b c => if a then b else c).
Definition majority := bitwise3 (fun a b c => (a && b) || (a && c) || (b && c)).
Definition xor3 := bitwise3 (fun a b c => xorb a (xorb b c)).
Definition big0 x := xor3 (rotate 2 x) (rotate 13 x) (rotate 22 x).
Definition big1 x := xor3 (rotate 6 x) (rotate 11 x) (rotate 25 x).
Definition small0 x := xor3 (rotate 7 x) (rotate 18 x) (shift 3 x).
Definition small1 x := xor3 (rotate 17 x) (rotate 19 x) (shift 10 x).

(** Sections 4.2.2 and 5.3.3: the first 32 bits of the fractional part of the [e]-th root of the
    prime number number [i] (counted from 0). *)
Definition nth_prime (i : nat) (p : Z) : Prop :=
  prime p /\ exists below, NoDup below /\ length below = i /\ forall q, In q below <-> prime q /\ (q < p)%Z.
Definition root_word (e : Z) (i : nat) (w : word) : Prop :=
  length w = 32 /\ exists p r, nth_prime i p /\ (0 <= r)%Z /\
    ((r * 2 ^ 32 + num_of w) ^ e <= p * 2 ^ (32 * e) < (r * 2 ^ 32 + num_of w + 1) ^ e)%Z.
Definition round_constants (K : nat -> word) : Prop := forall t, t < 64 -> root_word 3 t (K t).
Definition initial_hash (H : nat -> word) : Prop := forall i, i < 8 -> root_word 2 i (H i).

(** Section 5.1.1: a one, the fewest zeros that lead to 448 modulo 512, the length in 64 bits. *)
Definition padding (m p : list bool) : Prop := exists k,
  k < 512 /\ (length m + 1 + k) mod 512 = 448 /\
  p = m ++ true :: repeat false k ++ bits_of 64 (Z.of_nat (length m)).

(** Section 6.2.2: the schedule, the 64 steps on the variables a, ..., h, the chaining. *)
Fixpoint schedule_upto (fuel : nat) (M : nat -> word) (t : nat) : word :=
  match fuel with
  | O => []
  | S f =>
      if t <? 16 then M t
      else plus (plus (plus (small1 (schedule_upto f M (t - 2))) (schedule_upto f M (t - 7)))
                      (small0 (schedule_upto f M (t - 15)))) (schedule_upto f M (t - 16))
  end.
Definition schedule_word (M : nat -> word) (t : nat) : word := schedule_upto (S t) M t.

Definition vars : Type := word * word * word * word * word * word * word * word.
Definition step (K W : word) (v : vars) : vars :=
  let '(a, b, c, d, e, f, g, h) := v in
  let T1 := plus (plus (plus (plus h (big1 e)) (choose e f g)) K) W in
  let T2 := plus (big0 a) (majority a b c) in
  (plus T1 T2, a, b, c, plus d T1, e, f, g).
Fixpoint steps (K W : nat -> word) (t : nat) (v : vars) : vars :=
  match t with O => v | S t => step (K t) (W t) (steps K W t v) end.
Definition vars_plus (x y : vars) : vars :=
  let '(a, b, c, d, e, f, g, h) := x in
  let '(a', b', c', d', e', f', g', h') := y in
  (plus a a', plus b b', plus c c', plus d d', plus e e', plus f f', plus g g', plus h h').

(** Word [j] of block [i] of a padded message. *)
Definition block_word (p : list bool) (i j : nat) : word := firstn 32 (skipn (512 * i + 32 * j) p).
Fixpoint chain (K H : nat -> word) (p : list bool) (i : nat) : vars :=
  match i with
  | O => (H 0, H 1, H 2, H 3, H 4, H 5, H 6, H 7)
  | S i => let v := chain K H p i in vars_plus (steps K (schedule_word (block_word p i)) 64 v) v
  end.
Definition digest (K H : nat -> word) (p : list bool) : list bool :=
  let '(a, b, c, d, e, f, g, h) := chain K H p (length p / 512) in a ++ b ++ c ++ d ++ e ++ f ++ g ++ h.

(** Applied twice, as Bitcoin does. *)
Definition double_digest (K H : nat -> word) (m d : list bool) : Prop :=
  exists p1 p2, padding m p1 /\ padding (digest K H p1) p2 /\ d = digest K H p2.

(** The bits of a byte string, and a digest written as eight numbers. *)
Definition bytes_bits (l : list Z) : list bool := flat_map (bits_of 8) l.
Definition digest_words (l : list Z) : list bool := flat_map (bits_of 32) l.

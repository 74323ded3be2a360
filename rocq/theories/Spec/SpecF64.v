(** What is assumed of the platform's [f64::log2]. *)
From Coq Require Import ZArith.
From Verif.Model Require Import Base F64.
Local Open Scope Z_scope.

(** [p / 2^q <= log2 (m * 2^e)] and the converse, over the integers, for positive [m] and nonnegative [q]. *)
Definition log2_ge (m e p q : Z) : Prop := 2 ^ (p - e * 2 ^ q) <= m ^ (2 ^ q).
Definition log2_le (m e p q : Z) : Prop := m ^ (2 ^ q) <= 2 ^ (p - e * 2 ^ q).

(** [m1 * 2^e1 <= m2 * 2^e2]. *)
Definition num_le (m1 e1 m2 e2 : Z) : Prop :=
  m1 * 2 ^ (e1 - Z.min e1 e2) <= m2 * 2 ^ (e2 - Z.min e1 e2).

(** [Fin lm le] is one of the two f64 around the binary logarithm of [m * 2^e], or the logarithm
    itself if that is a f64: no f64 lies strictly between. *)
Definition faithful_at (m e lm le : Z) : Prop :=
  Z.abs lm < 2 ^ 53 /\
  forall p q, 0 <= q -> Z.abs p < 2 ^ 53 ->
    (log2_ge m e p q -> num_le p (- q) lm le) /\ (log2_le m e p q -> num_le lm le p (- q)).

(** A faithful logarithm: so on every finite argument from 2 on, and with the IEEE values at zero
    and infinity. *)
Definition faithful_log2 (log2f : f64 -> f64) : Prop :=
  (forall m e, 0 < m < 2 ^ 53 -> 1 <= Z.log2 m + e < 1024 ->
     exists lm le, log2f (Fin m e) = Fin lm le /\ faithful_at m e lm le) /\
  (forall e, log2f (Fin 0 e) = Inf true) /\ log2f (Inf false) = Inf false.

(** The carry widths of the environment are those of the f64 expression, for some faithful logarithm. *)
Definition f64_carries (E : Env) : Prop :=
  exists log2f, faithful_log2 log2f /\ forall M w, carry_bits_f64 M w = carry_bits_of log2f M w.

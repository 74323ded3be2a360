(** Model of src/btc_validation/median.rs. *)
From Coq Require Import ZArith Bool String List.
From Verif.Model Require Import Base CS Bellpepper Util Poly Bignat Ints.
Import ListNotations.
Local Open Scope string_scope.
Local Open Scope Z_scope.
Local Open Scope list_scope.

Section Median.
Context {E : Env}.

(** [Vec::sort] on u32: sorting by insertion. *)
Fixpoint insert (x : Z) (l : list Z) : list Z :=
  match l with
  | [] => [x]
  | y :: l' => if x <=? y then x :: l else y :: insert x l'
  end.
(** median.rs:12 [Vec::sort] on u32. *)
Definition sort (l : list Z) : list Z := fold_right insert [] l.

(** median.rs:10-14 [compute_median_timestamp]: also returns the vector as left by the call. *)
Definition compute_median_timestamp (ts : list Z) : res (Z * list Z) :=
  let s := sort ts in
  let? m := idx s (List.length s / 2) in
  Ok (m, s).

(** median.rs:122-129 and 188-195: the shift constant. *)
Definition zero_shift (n_bits : nat) : res Z :=
  if (n_bits <=? 126)%nat then
    let? s := u128_shl 2 (Z.of_nat n_bits) in Ok (from_u128 s)
  else
    let? s1 := u128_shl 2 (Z.of_nat (n_bits - 126)) in
    let? s2 := u128_shl 2 126 in
    Ok (fmul (from_u128 s2) (from_u128 s1)).

(** median.rs:142-151 and 208-217: sum of the low [n_bits + 1] bits with their weights. *)
Fixpoint sum_low_bits (cmp : option Z) (is : list nat) (exponent summ : Z) : res Z :=
  match is with
  | [] => Ok summ
  | i :: is =>
      let? v := grab cmp in
      let? ob := get_bit v i in
      let? b := grab ob in
      sum_low_bits cmp is (fmul exponent (fadd fone fone))
        (fadd summ (fmul (f_of_bool b) exponent))
  end.
(** median.rs:138-156 and the same closure in [leq]: the loop from its start. *)
Definition low_bits (cmp : option Z) (n_bits : nat) : res Z :=
  sum_low_bits cmp (seq 0 (S n_bits)) fone fzero.

(** median.rs:107-166 [less_than]. *)
Definition less_than (a b : allocated_num) (n_bits : nat) : prog Boolean :=
  let! z := unwrap_prog (ns (Nm "zero shift") (an_alloc
     (let? x := unwrap (an_val a) in
      let? y := unwrap (an_val b) in
      let? s := zero_shift n_bits in
      Ok (fsub (fadd x s) y)))) in
  let! nb := unwrap_prog (ns (Nm "n_bits zero cmp") (an_alloc (low_bits (an_val z) n_bits))) in
  ns (Nm "check fits in n_bits") (equals z nb).

(** median.rs:172-225 [leq]. *)
Definition leq (a b : allocated_num) (n_bits : nat) : prog Boolean :=
  let! z := unwrap_prog (ns (Nm "zero shift leq") (an_alloc
     (let? x := unwrap (an_val a) in
      let? y := unwrap (an_val b) in
      let y := fadd y fone in
      let? s := zero_shift n_bits in
      Ok (fsub (fadd x s) y)))) in
  let! nb := unwrap_prog (ns (Nm "n_bits zero cmp leq") (an_alloc (low_bits (an_val z) n_bits))) in
  ns (Nm "check fits in n_bits leq") (equals z nb).

(** [as u64] on a bool (median.rs:42-43, 58). *)
Definition z_of_bool (b : bool) : Z := if b then 1 else 0.

(** median.rs:33-72: one iteration of the loop over timestamps; the state is
    (n_median_occurrences, sign_diff). *)
Definition median_step (fe_median : allocated_num) (s : bp_num * allocated_num)
    (p : nat * allocated_num) : prog (bp_num * allocated_num) :=
  let '(n_occ, sign_diff) := s in
  let '(i, fe_time) := p in
  let! res_eq := unwrap_prog (ns (Nmi "check equal for time " i "") (equals fe_median fe_time)) in
  let n_occ := bp_add_bool n_occ res_eq fone in
  let! res_lt := unwrap_prog (ns (Nmi "res_lt " i "") (less_than fe_median fe_time 32)) in
  let! delta_sign := unwrap_prog (ns (Nmi "signum " i "") (an_alloc
     (let? eqv := unwrap (bool_val res_eq) in
      let? ltv := unwrap (bool_val res_lt) in
      let eq := from_u64 (z_of_bool eqv) in
      let lt := from_u64 (z_of_bool ltv) in
      Ok (fmul (fsub (fsub fone lt) lt) (fsub fone eq))))) in
  let! eqv := lift (unwrap (bool_val res_eq)) in
  let! eq_bit := unwrap_prog (ns (Nmi "equality " i "") (ab_alloc (Some eqv))) in
  let! lt_bit_mul2 := unwrap_prog (ns (Nmi "less than " i "") (an_alloc
     (let? ltv := unwrap (bool_val res_lt) in Ok (from_u64 (2 * z_of_bool ltv))))) in
  let! _ := enforce (Nmi "(1 - res_eq) * (1 - 2 * res_lt) == delta_sign " i "")
     (lc_sub (lc_var ONE) (lc_var (ab_var eq_bit)))
     (lc_sub (lc_var ONE) (lc_var (an_var lt_bit_mul2)))
     (lc_var (an_var delta_sign)) in
  let! sign_diff := unwrap_prog (ns (Nmi "sign_diff increment " i "") (an_add sign_diff delta_sign)) in
  Ret (n_occ, sign_diff).

(** median.rs:16-101 [verify_median_timestamp]. *)
Definition verify_median_timestamp (ts : list Z) (median : Z) : prog Boolean :=
  let! fe_median := unwrap_prog (ns (Nm "median") (an_alloc (Ok (from_u64 median)))) in
  let! fe_timestamps := mapM (fun p =>
     unwrap_prog (ns (Nmi "timestamp " (fst p) "") (an_alloc (Ok (from_u64 (snd p))))))
     (combine (seq 0 (List.length ts)) ts) in
  let! sign_diff0 := unwrap_prog (ns (Nm "sign_diff") (an_alloc (Ok (from_u64 0)))) in
  let! (n_occ, sign_diff) := foldM (median_step fe_median)
     (combine (seq 0 (List.length fe_timestamps)) fe_timestamps) (bp_zero, sign_diff0) in
  let! const_12 := unwrap_prog (ns (Nm "max positive sign_diff") (an_alloc (Ok (from_u64 12)))) in
  let! is_positive := unwrap_prog (ns (Nm "is_pos") (less_than sign_diff const_12 32)) in
  let! neg_sign_diff := unwrap_prog (ns (Nm "Negative of sign_diff") (an_alloc
     (let? v := unwrap (an_val sign_diff) in Ok (fsub fzero v)))) in
  let! _ := enforce (Nm "(sign_diff + neg_sign_diff) * 1 == 0")
     (lc_add (lc_var (an_var sign_diff)) (lc_var (an_var neg_sign_diff)))
     (lc_var ONE) lc_zero in
  let! (abs_sign_diff, _) := unwrap_prog (ns (Nm "absolute value")
     (an_conditionally_reverse sign_diff neg_sign_diff is_positive)) in
  let! const_1 := unwrap_prog (ns (Nm "increment by 1") (an_alloc (Ok fone))) in
  let! lhs := unwrap_prog (ns (Nm "LHS of inequality") (an_add abs_sign_diff const_1)) in
  let! fe_median_occ := unwrap_prog (ns (Nm "fe_median") (an_alloc (unwrap (bpn_val n_occ)))) in
  ns (Nm "median leq") (leq lhs fe_median_occ 32).

End Median.

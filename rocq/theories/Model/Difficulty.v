(** Model of src/btc_validation/difficulty_update.rs, hash_target.rs and prev_block_hash.rs.
    The last two are commented out of mod.rs:3-4; hash_target.rs calls [less_than] without a
    constraint system (lines 26, 28), here a namespace is supplied. *)
From Coq Require Import ZArith Bool String List.
From Verif.Model Require Import Base CS Bellpepper Util Poly Bignat Ints Median.
Import ListNotations.
Local Open Scope string_scope.
Local Open Scope Z_scope.
Local Open Scope list_scope.

Section Difficulty.
Context {E : Env}.

(** Seconds in 2016 blocks of ten minutes. *)
Definition two_weeks : Z := 2016 * 10 * 60.

(** [Num::alloc] in a namespace, unwrapped; [BigNat::from_num] likewise. *)
Definition num_u (nm : string) (w : res Z) : prog num := unwrap_prog (ns (Nm nm) (num_alloc w)).
(** [BigNat::from_num] in a namespace, unwrapped (e.g. difficulty_update.rs:22). *)
Definition bignat_u (nm : string) (n : num) (w k : nat) : prog bignat :=
  unwrap_prog (ns (Nm nm) (from_num n w k)).
(** [AllocatedNum::alloc] in a namespace, unwrapped (e.g. difficulty_update.rs:40). *)
Definition an_u (nm : string) (w : res Z) : prog allocated_num :=
  unwrap_prog (ns (Nm nm) (an_alloc w)).
(** [.unwrap().get_value().unwrap()] on the result of [less_than]. *)
Definition lt_u (nm : string) (a b : allocated_num) (n : nat) : prog bool :=
  let! r := unwrap_prog (ns (Nm nm) (less_than a b n)) in
  lift (unwrap (bool_val r)).
(** [assert!(b)]. *)
Definition assert (b : bool) : prog unit := if b then Ret tt else Crash.

(** difficulty_update.rs:10-62 [verify_difficulty_update]. *)
Definition verify_difficulty_update (cur_u cur_l prev_u prev_l sum_ts : Z) : prog unit :=
  let! t_sum_num := num_u "Sum of 2016 blocks timestamps" (Ok (from_u64 sum_ts)) in
  let! t_sum := bignat_u "BigNat t_sum" t_sum_num 64 2 in
  let! target_upper := num_u "Most significant 128 bits of target" (Ok (from_u128 cur_u)) in
  let! target_lower := num_u "Least significant 128 bits of target" (Ok (from_u128 cur_l)) in
  let! prev_tar_upper := num_u "Most significant 128 bits of last target" (Ok (from_u128 prev_u)) in
  let! prev_tar_lower := num_u "Least significant 128 bits of last target" (Ok (from_u128 prev_l)) in
  let! tar_u := bignat_u "Upper target in bignat" target_upper 64 2 in
  let! tar_l := bignat_u "Lower target in bignat" target_lower 64 2 in
  let! target := lift (unwrap_res (concat tar_u tar_l)) in
  let! ptar_u := bignat_u "Upper target before update in bignat" prev_tar_upper 64 2 in
  let! ptar_l := bignat_u "Lower target before update in bignat" prev_tar_lower 64 2 in
  let! prev_target := lift (unwrap_res (concat ptar_u ptar_l)) in
  let! fe_t_sum := an_u "Timestamps sum" (Ok (from_u64 sum_ts)) in
  let! t_sum_lower := an_u "Lower acceptable t_sum" (Ok (from_u64 (two_weeks / 4))) in
  let! t_sum_upper := an_u "Upper acceptable t_sum" (Ok (from_u64 (two_weeks * 4))) in
  let! res_lower := lt_u "res_lower" t_sum_lower fe_t_sum 32 in
  let! res_upper := lt_u "res_upper" fe_t_sum t_sum_upper 32 in
  let! _ := assert (res_lower && res_upper) in
  let! t_ideal_sum := num_u "2016 * 10 * 60" (Ok (from_u64 two_weeks)) in
  let! t_ideal := bignat_u "BigNat t_ideal_sum" t_ideal_sum 64 2 in
  let! (t_new, _) := unwrap_prog (ns (Nm "T_new compute") (mult_mod prev_target t_sum t_ideal)) in
  unwrap_prog (ns (Nm "computation equal to next target") (equal target t_new)).

(** difficulty_update.rs:64-113 [calculate_difficulty_update]. *)
Definition calculate_difficulty_update (prev_target sum_ts : allocated_num) : prog bignat :=
  let! t_sum := bignat_u "BigNat time sum" (num_from sum_ts) 64 1 in
  let! prev_targ := bignat_u "BigNat previous target" (num_from prev_target) 64 4 in
  let! t_sum_lower := an_u "Lower acceptable t sum" (Ok (from_u64 (two_weeks / 4))) in
  let! t_sum_upper := an_u "Upper acceptable t sum" (Ok (from_u64 (two_weeks * 4))) in
  let! res_lower := lt_u "res lower" t_sum_lower sum_ts 32 in
  let! res_upper := lt_u "res upper" sum_ts t_sum_upper 32 in
  let! _ := assert (res_lower && res_upper) in
  let! t_ideal_sum := num_u "2016 * 10 * 60 or 2 weeks" (Ok (from_u64 two_weeks)) in
  let! t_ideal := bignat_u "BigNat t ideal sum" t_ideal_sum 128 1 in
  let! (t_new, _) := unwrap_prog (ns (Nm "T new compute") (mult_mod prev_targ t_sum t_ideal)) in
  Ret t_new.

(** hash_target.rs:8-30 [verify_current_hash]. *)
Definition verify_current_hash (hash_u hash_l target_u target_l : Z) : prog Boolean :=
  let! h_u := an_u "Most significant 128 bits of hash" (Ok (from_u128 hash_u)) in
  let! h_l := an_u "Least significant 128 bits of hash" (Ok (from_u128 hash_l)) in
  let! t_u := an_u "Most significant 128 bits of target" (Ok (from_u128 target_u)) in
  let! t_l := an_u "Least significant 128 bits of target" (Ok (from_u128 target_l)) in
  let! res_upper_lt := unwrap_prog (ns (Nm "upper less than") (less_than h_u t_u 126)) in
  let! res_upper_eq := unwrap_prog (ns (Nm "Upper 128 bits equality check") (equals h_u t_u)) in
  let! res_lower_lt := unwrap_prog (ns (Nm "lower less than") (less_than h_l t_l 126)) in
  let! partial_res := unwrap_prog (ns (Nm "Upper 128 bits equal and lower hash bits less than target lower bits")
     (bool_and res_upper_eq res_lower_lt)) in
  ns (Nm "Is hash less than target") (bool_or res_upper_lt partial_res).

(** prev_block_hash.rs:16-20 and header_step.rs:155-159: u64 words to bits, high-order bit of each
    word first. *)
Definition words_to_bits (pre : string) (ws : list Z) : prog (list Boolean) :=
  let! bss := mapM (fun p =>
     let! bs := unwrap_prog (ns (Nmi pre (fst p) "") (u64_into_boolean_vec_le (snd p))) in
     Ret (rev bs)) (combine (seq 0 (List.length ws)) ws) in
  Ret (List.concat bss).

(** [let _ = r] on a [Result]: an error is dropped, and the [d] namespaces opened on the way to it are left. *)
Fixpoint ignore_err_at {A} (d : nat) (m : prog A) : prog unit :=
  match m with
  | Ret _ => Ret tt
  | Fail _ => Nat.iter d (fun k => Pop k) (Ret tt)
  | Crash => Crash
  | Alloc inp nm w k => Alloc inp nm w (fun x v => ignore_err_at d (k x v))
  | Enforce nm c k => Enforce nm c (ignore_err_at d k)
  | Push nm k => Push nm (ignore_err_at (S d) k)
  | Pop k => Pop (ignore_err_at (pred d) k)
  end.
(** prev_block_hash.rs:33 [let _ =]: the result of a gadget call is dropped. *)
Definition ignore_err {A} (m : prog A) : prog unit := ignore_err_at 0 m.

(** prev_block_hash.rs:7-35 [check_prev_hash].  ([enforce_equal] allocates nothing, so dropping its
    error cannot hide a failed allocation.) *)
Definition check_prev_hash (prev_block prev_hash : list Z) : prog unit :=
  let! hash_vec := words_to_bits "dummy " prev_hash in
  let! preimage_vec := words_to_bits "dummy2 " prev_block in
  let! out_sha256 := unwrap_prog (ns (Nm "SHA 256") (sha256_gadget preimage_vec)) in
  let! out := unwrap_prog (ns (Nm "SHA 256d") (sha256_gadget out_sha256)) in
  iterM (fun p => ignore_err (ns (Nmi "bit " (fst p) "")
     (bool_enforce_equal (fst (snd p)) (snd (snd p)))))
    (combine (seq 0 (List.length (combine hash_vec out))) (combine hash_vec out)).

End Difficulty.

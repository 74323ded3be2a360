(** Model of src/btc_validation/header_step.rs. *)
From Coq Require Import ZArith Bool String List.
From Verif.Model Require Import Base CS Bellpepper Util Poly Bignat Ints Median Difficulty.
Import ListNotations.
Local Open Scope string_scope.
Local Open Scope Z_scope.
Local Open Scope list_scope.

Section HeaderStep.
Context {E : Env}.

(** header_step.rs:18-24 [BlockHeader]: the field [block_head]. *)
Definition block_header := list Z.

(** header_step.rs:26-35 [Default]. *)
Definition default_header : block_header := repeat 0 10.

(** header_step.rs:44-53 [new_blocks]. *)
Definition new_blocks (input : list (list Z)) : list block_header := map (fun b => b) input.

(** header_step.rs:56-111 [initial_z_i_scalars]. *)
Definition initial_strings : list string :=
  ["18283544428642297129396529020735695233361821945456783020785813";
   "1305191152"; "1305191688"; "1305193319"; "1305194571"; "1305194986"; "1305195947";
   "1305197900"; "1305199436"; "1305200301"; "1305200460"; "1305200584";
   "171262555713783851185422181139260521316022447660158187451973632"].
(** header_step.rs:56-111 [initial_z_i_scalars]: the strings, then three numbers (101-107). *)
Definition initial_z_i_scalars : res (list Z) :=
  let? zs := rmapM (fun s => unwrap (from_str_vartime s)) initial_strings in
  Ok (zs ++ [from_u64 1304975844; from_u64 480; fzero]).

(** header_step.rs:118-120 [arity]. *)
Definition arity : nat := 16.

(** header_step.rs:147-151: the eight-byte words of the previous-hash field. *)
Definition prev_hash_word (header : list Z) (i : nat) : res Z :=
  let? h := idx header i in
  let? h1 := idx header (i + 1) in
  let? m := u64_mul (h mod 2 ^ 32) (2 ^ 32) in
  u64_add m (h1 / 2 ^ 32).

(** header_step.rs:163-175 and 225-237: contribution of bit [i]. *)
Definition hash_term (i : nat) (b : Boolean) : res Z :=
  let exponent := (16 * (i / 8) + 7 - i)%nat in
  if (128 <=? exponent)%nat then
    let? v := unwrap (bool_val b) in
    let? p := if v then let? s := u128_shl 1 (Z.of_nat (exponent - 127)) in Ok (from_u128 s)
              else Ok (from_u128 0) in
    Ok (fmul p (from_u128 (2 ^ 127)))
  else
    let? v := unwrap (bool_val b) in
    if v then let? s := u128_shl 1 (Z.of_nat exponent) in Ok (from_u128 s)
    else Ok (from_u128 0).

(** header_step.rs:161-175 and 226-240: the loop over the digest bits. *)
Fixpoint hash_sum (i : nat) (bs : list Boolean) (sum : Z) : res Z :=
  match bs with
  | [] => Ok sum
  | b :: bs => let? t := hash_term i b in hash_sum (S i) bs (fadd sum t)
  end.

(** header_step.rs:160-178 and 222-240: digest bits as a scalar. *)
Definition hash_scalar (bs : list Boolean) : res Z := hash_sum 0 bs fzero.

(** header_step.rs:190-194 and 269-274: the "byte" expressions, with Rust's precedences
    ([-] and [+] bind tighter than shifts). *)
Record quirk_bytes := mkQB { qb0 : Z; qb1 : Z; qb2 : Z; qb3 : Z }.
(** header_step.rs:190-194 and 269-273: the four bytes. *)
Definition split_bytes (n : Z) : res quirk_bytes :=
  let b0 := n mod 256 in
  let? b3 := u64_shr n 24 in
  let? k := u64_sub 16 b3 in
  let? x := u64_shr n k in
  let? b2 := u64_shl x 24 in
  let? k1 := u64_sub 8 b3 in
  let? k2 := u64_sub 24 b2 in
  let? y := u64_shr n k1 in
  let? y := u64_shl y k2 in
  let? b1 := u64_shl y 16 in
  Ok (mkQB b0 b1 b2 b3).

(** header_step.rs:197-211: closure computing the target. *)
Definition target_closure (b : quirk_bytes) : res Z :=
  let? k1 := u64_add 16 (qb2 b) in
  let? k2 := u64_add 8 (qb3 b) in
  let? m := u64_shl (qb1 b) k1 in
  let? mantissa := u64_shl m k2 in
  let? exponent := u64_sub (qb0 b) 3 in
  if 13 <=? exponent then
    let? p := u128_shl mantissa (8 * 13) in
    let? d := u64_sub exponent 13 in
    let? k := u64_mul 8 d in
    let? s := u128_shl 1 k in
    Ok (fmul (from_u128 s) (from_u128 p))
  else
    let? k := u64_mul 8 exponent in
    let? p := u128_shl mantissa k in
    Ok (from_u128 p).

(** header_step.rs:274: [b_t0 << 24 + b_t1 << 16 + b_t2 << 8 + b_t1]. *)
Definition time_endian (b : quirk_bytes) : res Z :=
  let? k1 := u64_add 24 (qb1 b) in
  let? k2 := u64_add 16 (qb2 b) in
  let? k3 := u64_add 8 (qb1 b) in
  let? x := u64_shl (qb0 b) k1 in
  let? x := u64_shl x k2 in
  u64_shl x k3.

(** [assert!(r.get_value().unwrap())]. *)
Definition assert_true (r : Boolean) : prog unit :=
  let! v := lift (unwrap (bool_val r)) in assert v.

(** header_step.rs:147-182: stage 1, previous hash. *)
Definition stage_prev_hash (header : list Z) (z : list allocated_num) : prog allocated_num :=
  let! words := lift (rmapM (prev_hash_word header) (seq 0 4)) in
  let! bits := words_to_bits "dummy " words in
  let! prev_hash := an_u "last block hash" (hash_scalar bits) in
  let! z0 := lift (idx z 0) in
  let! r := unwrap_prog (ns (Nm "Is prev. hash from current block equal to the last block hash?")
     (equals z0 prev_hash)) in
  let! _ := assert_true r in
  Ret prev_hash.

(** header_step.rs:190-247: stage 2, target, block hash and proof of work. *)
Definition stage_pow (header : list Z) : prog (quirk_bytes * allocated_num * allocated_num) :=
  let! h9 := lift (idx header 9) in
  let! n_bits := lift (u64_shr h9 32) in
  let! b := lift (split_bytes n_bits) in
  let! target := an_u "Block target" (target_closure b) in
  let! preimage := words_to_bits "dummy2 " header in
  let! out_sha256 := unwrap_prog (ns (Nm "SHA 256") (sha256_gadget preimage)) in
  let! out := unwrap_prog (ns (Nm "SHA 256d") (sha256_gadget out_sha256)) in
  let! curr_hash := an_u "current block hash" (hash_scalar out) in
  let! r := unwrap_prog (ns (Nm "Is PoW consensus achieved?") (less_than curr_hash target 224)) in
  let! _ := assert_true r in
  Ret (b, target, curr_hash).

(** header_step.rs:251-257: one timestamp of the state as u32. *)
Definition state_time (z : list allocated_num) (i : nat) : res Z :=
  let? a := idx z i in
  let? v := unwrap (an_val a) in
  idx (digits (2 ^ 32) (f_to_nat v)) 0.

(** header_step.rs:251-279: stage 3, median and timestamp. *)
Definition stage_time (header : list Z) (z : list allocated_num) : prog allocated_num :=
  let! times := lift (rmapM (state_time z) (seq 1 11)) in
  let! (median, times) := lift (compute_median_timestamp times) in
  let! r_median := unwrap_prog (ns (Nm "median verify") (verify_median_timestamp times median)) in
  let! _ := assert_true r_median in
  let! h8 := lift (idx header 8) in
  let! b := lift (split_bytes (h8 mod 2 ^ 32)) in
  let! t := lift (time_endian b) in
  let! median_fe := an_u "median" (Ok (from_u64 median)) in
  let! curr_timestamp := an_u "current timestamp" (Ok (from_u64 t)) in
  let! r_time := unwrap_prog (ns (Nm "valid timestamp") (less_than median_fe curr_timestamp 32)) in
  let! _ := assert_true r_time in
  Ret curr_timestamp.

(** header_step.rs:283-289: closure of the maximum target. *)
Definition max_target_closure : res Z :=
  let? s := u128_shl 65535 81 in
  Ok (fmul (from_u128 s) (from_u128 (2 ^ 127))).

(** header_step.rs:291-302: closure of the block work. *)
Definition work_closure (max_target target : option Z) : res Z :=
  let? diff := unwrap max_target in
  let? targ := unwrap target in
  let? work := bigint_div (f_to_nat diff) (f_to_nat targ) in
  let? d := idx (digits (2 ^ 64) work) 0 in
  Ok (from_u64 d).

(** header_step.rs:283-311: stage 4, work. *)
Definition stage_work (target : allocated_num) : prog allocated_num :=
  let! max_target := an_u "maximum target" max_target_closure in
  let! block_work := an_u "work or difficulty" (work_closure (an_val max_target) (an_val target)) in
  let! _ := enforce (Nm "max_target = target * block_work")
     (lc_var (an_var target)) (lc_var (an_var block_work)) (lc_var (an_var max_target)) in
  Ret block_work.

(** header_step.rs:334-348: closure of the recomputed target ([+] binds tighter than [<<]). *)
Definition calculated_closure (b0 : Z) (ds : list Z) : res Z :=
  let? e := u64_sub b0 3 in
  let? exponent := u64_mul 8 e in
  let? t0 := idx ds 0 in
  let? t1 := idx ds 1 in
  let? x := u128_shl (t0 + t1) 64 in
  let? x := u128_shr x exponent in
  let? t2 := idx ds 2 in
  let? m := u128_shl t2 64 in
  let? p := u128_shr (2 ^ 64) exponent in
  let? s := u128_shl 1 exponent in
  Ok (fmul (fadd (fmul (from_u128 p) (from_u128 m)) (from_u128 x)) (from_u128 s)).

(** header_step.rs:320-400: stage 5, target update. *)
Definition stage_target_update (b : quirk_bytes) (target : allocated_num) (z : list allocated_num)
  : prog (bignat * allocated_num * allocated_num) :=
  let! z12 := lift (idx z 12) in
  let! z14 := lift (idx z 14) in
  let! _ := enforce (Nm "0 = (target - z_i[12]) * z_i[14]")
     (lc_sub (lc_var (an_var target)) (lc_var (an_var z12))) (lc_var (an_var z14)) lc_zero in
  let! start_time_epoch := lift (idx z 13) in
  let! target_calc := unwrap_prog (ns (Nm "target calculated")
     (calculate_difficulty_update z12 start_time_epoch)) in
  let! bigint_tar := lift (unwrap (value target_calc)) in
  let ds := digits (2 ^ 64) bigint_tar in
  let! calculated_target := an_u "target updated" (calculated_closure (qb0 b) ds) in
  let! delta_inv := ns (Nm "delta_inv") (an_alloc
     (let? d := unwrap (an_val z14) in
      if d =? 0 then Ok fone else unwrap (finvert d))) in
  let! t := ns (Nm "t") (an_alloc
     (let? d := unwrap (an_val z14) in let? i := unwrap (an_val delta_inv) in Ok (fmul d i))) in
  let t_1 := lc_sub (lc_var (an_var t)) (lc_var ONE) in
  let! _ := enforce (Nm "t = z_i[14] * delta_inv")
     (lc_var (an_var z14)) (lc_var (an_var delta_inv)) (lc_var (an_var t)) in
  let! _ := enforce (Nm "z_i[14] * (t - 1) == 0") (lc_var (an_var z14)) t_1 lc_zero in
  let! _ := enforce (Nm "(curr_target - calc_target) * (t - 1) == 0")
     (lc_sub (lc_var (an_var target)) (lc_var (an_var calculated_target))) t_1 lc_zero in
  Ret (target_calc, calculated_target, start_time_epoch).

(** [v[i] = a] on a vector: panics when out of range. *)
Fixpoint vec_set {A} (i : nat) (a : A) (l : list A) : res (list A) :=
  match l, i with
  | [], _ => Panic
  | _ :: l, O => Ok (a :: l)
  | b :: l, S i => let? l' := vec_set i a l in Ok (b :: l')
  end.

(** [z_out[i] = a] followed by enforcing 0 * 0 = z_out[i] - a. *)
Definition out_copy (nm : name) (i : nat) (a : allocated_num) (z_out : list allocated_num)
  : prog (list allocated_num) :=
  let! z_out := lift (vec_set i a z_out) in
  let! o := lift (idx z_out i) in
  let! _ := enforce nm lc_zero lc_zero (lc_sub (lc_var (an_var o)) (lc_var (an_var a))) in
  Ret z_out.

(** header_step.rs:409-484: stage 6, output; [z_out] is the initial vector. *)
Definition stage_out (z_out : list allocated_num) (z : list allocated_num)
    (curr_hash curr_timestamp target start_time_epoch block_work : allocated_num)
  : prog (list allocated_num) :=
  let! z_out := out_copy (Nm "current SHA256d hash out") 0 curr_hash z_out in
  let! z_out := foldM (fun z_out i =>
     let! zi1 := lift (idx z (i + 1)) in
     out_copy (Nmi "timestamp out " i "") i zi1 z_out) (seq 1 10) z_out in
  let! z_out := out_copy (Nm "current timestamp out") 11 curr_timestamp z_out in
  let! z_out := out_copy (Nm "current target out") 12 target z_out in
  let! z_out := out_copy (Nm "current start time epoch out") 13 start_time_epoch z_out in
  let! z14 := lift (idx z 14) in
  let! o14 := an_u "target counter" (let? v := unwrap (an_val z14) in Ok (fadd v fone)) in
  let! z_out := lift (vec_set 14 o14 z_out) in
  let! _ := enforce (Nm "z_out[14] = z_i[14] + 1")
     (lc_add (lc_var ONE) (lc_var (an_var z14))) (lc_var ONE) (lc_var (an_var o14)) in
  let! z15 := lift (idx z 15) in
  let! o15 := an_u "total work"
     (let? p := unwrap (an_val z15) in let? w := unwrap (an_val block_work) in Ok (fadd w p)) in
  let! z_out := lift (vec_set 15 o15 z_out) in
  let! _ := enforce (Nm "z_out[15] = z_i[15] + block_work")
     (lc_add (lc_var (an_var block_work)) (lc_var (an_var z15))) (lc_var ONE)
     (lc_var (an_var o15)) in
  Ret z_out.

(** header_step.rs:122-485 [synthesize], with the initial output vector as a parameter. *)
Definition synthesize_with (z_out : list allocated_num) (header : block_header)
    (z : list allocated_num) : prog (list allocated_num) :=
  let! _ := stage_prev_hash header z in
  let! (b, target, curr_hash) := stage_pow header in
  let! curr_timestamp := stage_time header z in
  let! block_work := stage_work target in
  let! (_, _, start_time_epoch) := stage_target_update b target z in
  stage_out z_out z curr_hash curr_timestamp target start_time_epoch block_work.

(** header_step.rs:411: the output vector starts as [Vec::new()]. *)
Definition synthesize (header : block_header) (z : list allocated_num)
  : prog (list allocated_num) := synthesize_with [] header z.

End HeaderStep.

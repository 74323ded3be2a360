(** C76-C77: the built-in initial state; comparison, allocation and display of numbers. *)
From Coq Require Import ZArith Bool List Sorted Ascii String.
From Verif.Model Require Import Base Sha256 CS Bellpepper Util Poly Bignat BignatMisc Ints Median Difficulty HeaderStep Fields.
From Verif.Spec Require Import Spec SpecHeader.
From Verif.Proofs Require Import Prime PrimeFields HeaderEx MiscP.
Import ListNotations.
Local Open Scope string_scope.
Local Open Scope Z_scope.
Local Open Scope list_scope.

(** The initial state is that of block 123455: the previous hash and the target of block 123456, eleven timestamps,
    epoch start, counter and no work. *)
Theorem C76_initial_state : forall (E : Env), 2 ^ 207 <= modulus ->
  initial_z_i_scalars = Ok ([prev_hash_field block_123456] ++
    [1305191152; 1305191688; 1305193319; 1305194571; 1305194986; 1305195947; 1305197900; 1305199436; 1305200301; 1305200460; 1305200584] ++
    [compact_target (nbits_field block_123456); 1304975844; 480; 0]).
Proof. exact @top_initial_state. Qed.
Print Assumptions C76_initial_state.

(** The start of the epoch is used as its duration: outside (302400, 4838400), so for every date after February 1970, the
    target update panics. *)
Theorem C76_epoch_refuted : forall (E : Env) (W : Wf E) b target z s z13 t,
  good s -> nth_error z 13 = Some z13 -> an_at s z13 t -> 2 ^ 64 <= modulus -> ~ (302400 < t < 4838400) ->
  fst (run true (stage_target_update b target z) s) = Panic.
Proof. exact @top_epoch_panics. Qed.
Print Assumptions C76_epoch_refuted.

(** In particular on the built-in initial state, for every header and target. *)
Theorem C76_initial_refuted : forall (E : Env) (W : Wf E) b target z vs s,
  good s -> 2 ^ 207 <= modulus -> initial_z_i_scalars = Ok vs -> Forall2 (an_at s) z vs ->
  fst (run true (stage_target_update b target z) s) = Panic.
Proof. exact @top_initial_panics. Qed.
Print Assumptions C76_initial_refuted.

Example C76_case : let E := pallas_env true in 2 ^ 207 <= modulus /\ exists vs, initial_z_i_scalars = Ok vs /\
  List.length vs = arity /\ StronglySorted Z.lt (firstn 11 (skipn 1 vs)) /\ Forall canon vs.
Proof. exact C76_witness. Qed.
Example C76_state : let E := pallas_env true in exists z vs s,
  good s /\ initial_z_i_scalars = Ok vs /\ Forall2 (an_at s) z vs.
Proof. exact C76_state_witness. Qed.

(** [==] compares the recorded values and the parameters. *)
Theorem C77_eq_iff : forall a b, bn_eqb a b = true <-> value a = value b /\ bparams a = bparams b.
Proof. exact top_eqb_iff. Qed.
Print Assumptions C77_eq_iff.

(** Without witnesses any two numbers of the same size are [==]. *)
Theorem C77_eq_shape_refuted : forall (E : Env) f g w n s, exists a b s', run false (
     let! a := alloc_from_nat f w n in
     let! b := alloc_from_nat g w n in Ret (a, b)) s = (Ok (a, b), s') /\ bn_eqb a b = true.
Proof. exact @top_eqb_shape. Qed.
Print Assumptions C77_eq_shape_refuted.

(** With witnesses the limbs may still differ. *)
Theorem C77_eq_limbs_refuted : let E := small_env 251 in
  let '(r, s) := run true (
     let! a := alloc_from_limbs (Ok [9; 3; 0]) (Some 9) 3 3 in
     let! b := alloc_from_limbs (Ok [1; 4; 0]) (Some 9) 3 3 in Ret (a, b)) st_init in
  match r with
  | Ok (a, b) => bn_eqb a b = true /\ wires (asg s) (limbs a) <> wires (asg s) (limbs b) /\
      let '(r', s') := run true (equal a b) s in r' = Ok tt /\ satb (asg s') s' = false
  | _ => False
  end.
Proof. exact C77_limbs_witness. Qed.
Print Assumptions C77_eq_limbs_refuted.

(** Allocation through the trait uses the width and the count of the parameters and resets the two bounds. *)
Theorem C77_gadget_alloc : forall (E : Env) (W : Wf E) v p s,
  good s -> (1 <= n_limbs p)%nat -> (limb_width p < NUM_BITS)%nat ->
  0 <= v < 2 ^ Z.of_nat (limb_width p * n_limbs p) ->
  exists b s' vs, run true (gadget_alloc (Some v) p) s = (Ok b, s') /\ good s' /\
    bignat_at s' b vs /\ value b = Some v /\ List.length vs = n_limbs p /\ Forall (fun d => 0 <= d < 2 ^ Z.of_nat (limb_width p)) vs /\
    min_bits (bparams b) = 0%nat /\ max_word (bparams b) = 2 ^ Z.of_nat (limb_width p) - 1.
Proof. intros E W. exact (@top_gadget_alloc E W). Qed.
Print Assumptions C77_gadget_alloc.

Theorem C77_gadget_alloc_missing : forall (E : Env) p s,
  (1 <= n_limbs p)%nat -> fst (run true (gadget_alloc None p) s) = Err IoError.
Proof. exact @top_gadget_alloc_missing. Qed.
Print Assumptions C77_gadget_alloc_missing.

(** Two numbers are displayed alike exactly when the recorded values are the same. *)
Theorem C77_display_iff : forall a b, bn_display a = bn_display b <-> value a = value b.
Proof. exact top_display_iff. Qed.
Print Assumptions C77_display_iff.

(** Two bit vectors are displayed alike exactly when the recorded values are the same and, without values, the lengths. *)
Theorem C77_bits_display_iff : forall a b, bv_display a = bv_display b <->
  bv_vals a = bv_vals b /\ (bv_vals a = None -> List.length (bv_bits a) = List.length (bv_bits b)).
Proof. exact top_bv_display. Qed.
Print Assumptions C77_bits_display_iff.

(** The digits are shown low-order bit first. *)
Theorem C77_bits_display_digit : forall b vs i v, bv_vals b = Some vs -> nth_error vs i = Some v ->
  String.get (10 + i) (bv_display b) = Some (if v then "1" else "0")%char /\
  String.length (bv_display b) = (11 + List.length vs)%nat.
Proof. intros b vs i v H1 H2. exact (conj (top_bv_display_digit b vs i v H1 H2) (top_bv_display_len b vs H1)). Qed.
Print Assumptions C77_bits_display_digit.

Example C77_bits_case : let E := small_env 251 in
  let '(r, s) := run true (let! n := num_alloc (Ok 6) in num_decompose n 4) st_init in
  let '(r', s') := run false (let! n := num_alloc (Ok 6) in num_decompose n 4) st_init in
  match r, r' with
  | Ok b, Ok b' => bv_display b = "Bitvector(0110)" /\ bv_display b' = "Bitvector(len 4)"
  | _, _ => False
  end.
Proof. vm_compute. auto. Qed.

Example C77_case : let E := small_env 251 in
  let '(r, s) := run true (
     let! a := gadget_alloc (Some 37) (mkParams 5 200 3 2) in
     let! b := alloc_from_nat (Ok 37) 3 2 in Ret (a, b)) st_init in
  match r with
  | Ok (a, b) => bn_eqb a b = true /\ bn_display a = "BigNat(37)"
  | _ => False
  end.
Proof. vm_compute. auto. Qed.

(** C14-C21: equality, allocation, range checks and bit decomposition of big naturals. *)
From Coq Require Import ZArith Bool List.
From Verif.Model Require Import Base CS Bellpepper Util Poly Bignat Fields.
From Verif.Spec Require Import Spec.
From Verif.Proofs Require Import Prime TopBignat1.
Import ListNotations.
Local Open Scope Z_scope.

(** The boolean returned by [equals] is the truth in every satisfying assignment. *)
Theorem C14_equals_sound : forall (E : Env) (W : Wf E) wit a b s r s' rho,
  run wit (equals a b) s = (Ok r, s') -> sat rho s' ->
  exists x : bool, feval rho (bool_lc r 1) = Z.b2z x /\
    (x = true <-> feval rho (lc_var (an_var a)) = feval rho (lc_var (an_var b))).
Proof. exact @top_equals_sound. Qed.
Print Assumptions C14_equals_sound.

Theorem C14_equals_complete : forall (E : Env) (W : Wf E) a b x y s,
  good s -> an_at s a x -> an_at s b y ->
  exists r s', run true (equals a b) s = (Ok r, s') /\ good s' /\ boolean_at s' r (x =? y).
Proof. exact @top_equals_complete. Qed.
Print Assumptions C14_equals_complete.

Example C14_case : let E := small_env 251 in
  let '(r, s) := run true (
     let! a := an_alloc (Ok 7) in let! b := an_alloc (Ok 200) in let! c := an_alloc (Ok 7) in
     let! x := equals a b in let! y := equals a c in Ret (x, y)) st_init in
  match r with
  | Ok (x, y) => feval (asg s) (bool_lc x 1) = 0 /\ feval (asg s) (bool_lc y 1) = 1 /\
            satb (asg s) s = true
  | _ => False
  end.
Proof. vm_compute. auto. Qed.

(** [equal] adds exactly the condition that the limbs agree, a missing limb counting as zero. *)
Theorem C15_equal : forall (E : Env) wit a b s,
  limb_width (bparams a) = limb_width (bparams b) ->
  exists s', run wit (equal a b) s = (Ok tt, s') /\ forall rho, sat rho s' <->
    sat rho s /\ forall i, nth i (wires rho (limbs a)) 0 = nth i (wires rho (limbs b)) 0.
Proof. exact @top_equal_iff. Qed.
Print Assumptions C15_equal.

Theorem C15_equal_error : forall wit a b s,
  limb_width (bparams a) <> limb_width (bparams b) ->
  run wit (equal a b) s = (Err Unsatisfiable, s).
Proof. exact @top_equal_error. Qed.
Print Assumptions C15_equal_error.

Example C15_case : let E := small_env 251 in
  let '(r, s) := run true (
     let! a := alloc_from_nat (Ok 37) 3 3 in let! b := alloc_from_nat (Ok 37) 3 2 in
     equal b a) st_init in
  r = Ok tt /\ satb (asg s) s = true /\ length (st_cons s) = 3%nat.
Proof. vm_compute. auto. Qed.

(** [is_equal] decides limb-wise equality. *)
Theorem C16_is_equal_sound : forall (E : Env) (W : Wf E) wit a b s r s' rho,
  run wit (is_equal a b) s = (Ok r, s') -> sat rho s' ->
  exists x : bool, feval rho (bool_lc r 1) = Z.b2z x /\
    (x = true <-> wires rho (limbs a) = wires rho (limbs b)).
Proof. exact @top_is_equal_sound. Qed.
Print Assumptions C16_is_equal_sound.

Theorem C16_is_equal_complete : forall (E : Env) (W : Wf E) a b xs ys s,
  good s -> bignat_at s a xs -> bignat_at s b ys ->
  length xs = length ys -> limb_width (bparams a) = limb_width (bparams b) ->
  exists r s' x, run true (is_equal a b) s = (Ok r, s') /\ good s' /\ boolean_at s' r x /\
    (x = true <-> xs = ys).
Proof. exact @top_is_equal_complete. Qed.
Print Assumptions C16_is_equal_complete.

Theorem C16_is_equal_error : forall (E : Env) wit a b s,
  length (limbs a) <> length (limbs b) \/ limb_width (bparams a) <> limb_width (bparams b) ->
  run wit (is_equal a b) s = (Err Unsatisfiable, s).
Proof. exact @top_is_equal_error. Qed.
Print Assumptions C16_is_equal_error.

Example C16_case : let E := small_env 251 in
  let '(r, s) := run true (
     let! a := alloc_from_nat (Ok 37) 3 2 in let! b := alloc_from_nat (Ok 36) 3 2 in
     let! x := is_equal a b in let! y := is_equal a a in Ret (x, y)) st_init in
  match r with
  | Ok (x, y) => feval (asg s) (bool_lc x 1) = 0 /\ feval (asg s) (bool_lc y 1) = 1 /\
            satb (asg s) s = true
  | _ => False
  end.
Proof. vm_compute. auto. Qed.

(** Allocation: recorded value and limbs agree; the only failures; no constraint is emitted. *)
Theorem C17_alloc_from_nat : forall (E : Env) (W : Wf E) v w n s,
  good s -> (1 <= n)%nat -> (w < NUM_BITS)%nat -> 0 <= v < 2 ^ Z.of_nat (w * n) ->
  exists b s' vs, run true (alloc_from_nat (Ok v) w n) s = (Ok b, s') /\ good s' /\
    bignat_at s' b vs /\ value b = Some v /\ length vs = n /\
    bparams b = params_new w n /\ Forall (fun d => 0 <= d < 2 ^ Z.of_nat w) vs.
Proof. exact @top_alloc_from_nat. Qed.
Print Assumptions C17_alloc_from_nat.

Theorem C17_alloc_from_nat_error : forall (E : Env) v w n s,
  (1 <= n)%nat -> 0 <= v -> 2 ^ Z.of_nat (w * n) <= v ->
  run true (alloc_from_nat (Ok v) w n) s = (Err IoError, s).
Proof. exact @top_alloc_from_nat_error. Qed.
Print Assumptions C17_alloc_from_nat_error.

Theorem C17_alloc_from_limbs : forall (E : Env) (W : Wf E) vs mw w n s,
  good s -> (1 <= n)%nat -> Forall canon vs -> length vs = n ->
  exists b s', run true (alloc_from_limbs (Ok vs) mw w n) s = (Ok b, s') /\ good s' /\
    limb_values b = Some vs /\ value b = Some (value_of (2 ^ Z.of_nat w) vs) /\
    Forall2 (carries s') (limbs b) vs /\
    bparams b = mkParams 0 (match mw with Some m => m | None => 2 ^ Z.of_nat w - 1 end) w n.
Proof. exact @top_alloc_from_limbs. Qed.
Print Assumptions C17_alloc_from_limbs.

Theorem C17_alloc_from_limbs_error : forall (E : Env) vs mw w n s,
  (1 <= n)%nat -> length vs <> n ->
  run true (alloc_from_limbs (Ok vs) mw w n) s = (Err Unsatisfiable, s).
Proof. exact @top_alloc_from_limbs_error. Qed.
Print Assumptions C17_alloc_from_limbs_error.

Theorem C17_from_limbs : forall (E : Env) (W : Wf E) s ns vs w,
  good s -> Forall2 (num_at s) ns vs ->
  limb_values (from_limbs ns w) = Some vs /\
  value (from_limbs ns w) = Some (value_of (2 ^ Z.of_nat w) vs) /\
  limbs (from_limbs ns w) = map n_lc ns /\ Forall2 (carries s) (limbs (from_limbs ns w)) vs /\
  bparams (from_limbs ns w) = mkParams 0 (2 ^ Z.of_nat w - 1) w (length ns).
Proof. exact @top_from_limbs. Qed.
Print Assumptions C17_from_limbs.

Theorem C17_alloc_from_nat_no_constraint : forall (E : Env) f w n wit s,
  st_cons (snd (run wit (alloc_from_nat f w n) s)) = st_cons s.
Proof. exact @top_alloc_nat. Qed.
Print Assumptions C17_alloc_from_nat_no_constraint.

Theorem C17_alloc_from_limbs_no_constraint : forall (E : Env) f mw w n wit s,
  st_cons (snd (run wit (alloc_from_limbs f mw w n) s)) = st_cons s.
Proof. exact @top_alloc_limbs. Qed.
Print Assumptions C17_alloc_from_limbs_no_constraint.

Example C17_case : let E := small_env 251 in
  let '(r, s) := run true (
     let! a := alloc_from_nat (Ok 37) 3 3 in let! b := alloc_from_limbs (Ok [9; 200]) None 3 2 in
     Ret (a, b)) st_init in
  match r with
  | Ok (a, b) => wires (asg s) (limbs a) = [5; 4; 0] /\ value a = Some 37 /\
       value b = Some 1609 /\ limb_values b = Some [9; 200] /\ st_cons s = []
  | _ => False
  end.
Proof. vm_compute. auto 6. Qed.

(** [from_num]: limbs in range, value congruent to the number, and equal to it when it fits. *)
Theorem C18_from_num_sound : forall (E : Env) (W : Wf E) wit n w k s b s' rho,
  run wit (from_num n w k) s = (Ok b, s') -> sat rho s' -> (w < NUM_BITS)%nat ->
  length (limbs b) = k /\ bparams b = params_new w k /\
  Forall (fun v => 0 <= v < 2 ^ Z.of_nat w) (wires rho (limbs b)) /\
  int_of rho b mod modulus = feval rho (n_lc n) /\
  ((w * k < NUM_BITS)%nat -> int_of rho b = feval rho (n_lc n)).
Proof. exact @top_from_num_sound. Qed.
Print Assumptions C18_from_num_sound.

Theorem C18_from_num_complete : forall (E : Env) (W : Wf E) n v w k s,
  good s -> num_at s n v -> (w < NUM_BITS)%nat -> (1 <= k)%nat -> v < 2 ^ Z.of_nat (w * k) ->
  exists b s' vs, run true (from_num n w k) s = (Ok b, s') /\ good s' /\ bignat_at s' b vs /\
    value b = Some v /\ Forall (fun d => 0 <= d < 2 ^ Z.of_nat w) vs /\ bparams b = params_new w k.
Proof. exact @top_from_num_complete. Qed.
Print Assumptions C18_from_num_complete.

Example C18_case : let E := small_env 251 in
  let '(r, s) := run true (
     let! a := num_alloc (Ok 100) in from_num a 3 3) st_init in
  match r with
  | Ok b => wires (asg s) (limbs b) = [4; 4; 1] /\ int_of (asg s) b = 100 /\
            satb (asg s) s = true
  | _ => False
  end.
Proof. vm_compute. auto. Qed.

(** Every representative of the number that fits in the limbs is accepted; when the number plus
    the modulus fits there are at least two. *)
Theorem C19_from_num_any : forall (E : Env) (W : Wf E) wit n v x w k s b s' rho0,
  good_for rho0 s -> carries_for rho0 s (n_lc n) v ->
  run wit (from_num n w k) s = (Ok b, s') -> (w < NUM_BITS)%nat ->
  0 <= x < 2 ^ Z.of_nat (w * k) -> x mod modulus = v ->
  exists rho, same_on s rho rho0 /\ sat rho s' /\ int_of rho b = x /\
    Forall (fun d => 0 <= d < 2 ^ Z.of_nat w) (wires rho (limbs b)).
Proof. exact @top_from_num_any. Qed.
Print Assumptions C19_from_num_any.

Theorem C19_from_num_ambiguous : forall (E : Env) (W : Wf E) wit n v w k s b s' rho0,
  good_for rho0 s -> carries_for rho0 s (n_lc n) v ->
  run wit (from_num n w k) s = (Ok b, s') -> (w < NUM_BITS)%nat ->
  v + modulus < 2 ^ Z.of_nat (w * k) ->
  (exists rho, same_on s rho rho0 /\ sat rho s' /\ int_of rho b = v) /\
  (exists rho, same_on s rho rho0 /\ sat rho s' /\ int_of rho b = v + modulus).
Proof. exact @top_from_num_ambiguous. Qed.
Print Assumptions C19_from_num_ambiguous.

(** At 4 limbs of 64 bits over a field below 2^255 this happens for every number. *)
Theorem C19_from_num_4x64 : forall (E : Env) (W : Wf E) wit n v s b s' rho0,
  good_for rho0 s -> carries_for rho0 s (n_lc n) v ->
  run wit (from_num n 64 4) s = (Ok b, s') -> (64 < NUM_BITS)%nat -> modulus < 2 ^ 255 ->
  exists rho, same_on s rho rho0 /\ sat rho s' /\ int_of rho b = v + modulus.
Proof. exact @top_from_num_4x64. Qed.
Print Assumptions C19_from_num_4x64.

Example C19_case : let E := small_env 13 in
  let '(r, s) := run true (let! a := num_alloc (Ok 2) in from_num a 2 2) st_init in
  match r with
  | Ok b => let s2 := snd (run true (let! a := num_alloc (Ok 2) in
              let! b := alloc_from_nat (Ok 15) 2 2 in bn_decompose b) st_init) in
            int_of (asg s) b = 2 /\ satb (asg s) s = true /\
            int_of (asg s2) b = 15 /\ satb (asg s2) s = true
  | _ => False
  end.
Proof. vm_compute. auto. Qed.

(** The range check of all limbs is exact. *)
Theorem C20_well_formed_exact : forall (E : Env) (W : Wf E) wit b vs s u s' rho0,
  good_for rho0 s -> well_shaped b -> Forall2 (carries_for rho0 s) (limbs b) vs ->
  (1 <= limb_width (bparams b))%nat ->
  run wit (assert_well_formed b) s = (Ok u, s') ->
  ((exists rho, same_on s rho rho0 /\ sat rho s') <->
   Forall (fun v => v < 2 ^ Z.of_nat (limb_width (bparams b))) vs).
Proof. exact @top_well_formed_exact. Qed.
Print Assumptions C20_well_formed_exact.

Theorem C20_well_formed_complete : forall (E : Env) (W : Wf E) b vs s,
  good s -> bignat_at s b vs ->
  Forall (fun v => v < 2 ^ Z.of_nat (limb_width (bparams b))) vs ->
  (1 <= limb_width (bparams b) <= NUM_BITS)%nat ->
  exists s', run true (assert_well_formed b) s = (Ok tt, s') /\ good s'.
Proof. exact @top_well_formed_complete. Qed.
Print Assumptions C20_well_formed_complete.

Example C20_case : let E := small_env 251 in
  (let '(r, s) := run true (let! a := alloc_from_limbs (Ok [7; 0; 3]) None 3 3 in
                            assert_well_formed a) st_init in
   r = Ok tt /\ satb (asg s) s = true) /\
  (let '(r, s) := run true (let! a := alloc_from_limbs (Ok [7; 8; 3]) None 3 3 in
                            assert_well_formed a) st_init in
   r = Ok tt /\ satb (asg s) s = false).
Proof. vm_compute. auto. Qed.

(** The bits of a decomposition are the binary expansion of the number. *)
Theorem C21_decompose_sound : forall (E : Env) (W : Wf E) wit b s bv s' rho,
  run wit (bn_decompose b) s = (Ok bv, s') -> sat rho s' ->
  (limb_width (bparams b) < NUM_BITS)%nat ->
  exists bs, length bs = (limb_width (bparams b) * length (limbs b))%nat /\
    wires rho (bv_bits bv) = map Z.b2z bs /\ bits_value bs = int_of rho b.
Proof. exact @top_bn_decompose_sound. Qed.
Print Assumptions C21_decompose_sound.

Theorem C21_decompose_complete : forall (E : Env) (W : Wf E) b vs s,
  good s -> bignat_at s b vs ->
  Forall (fun v => v < 2 ^ Z.of_nat (limb_width (bparams b))) vs ->
  (1 <= limb_width (bparams b) <= NUM_BITS)%nat -> vs <> [] ->
  exists bv s' bs, run true (bn_decompose b) s = (Ok bv, s') /\ good s' /\
    bv_vals bv = Some bs /\ Forall2 (fun l x => carries s' l (Z.b2z x)) (bv_bits bv) bs /\
    length bs = (limb_width (bparams b) * length vs)%nat /\
    bits_value bs = value_of (2 ^ Z.of_nat (limb_width (bparams b))) vs.
Proof. exact @top_bn_decompose_complete. Qed.
Print Assumptions C21_decompose_complete.

Example C21_case : let E := small_env 251 in
  let '(r, s) := run true (let! a := alloc_from_nat (Ok 37) 3 2 in bn_decompose a) st_init in
  match r with
  | Ok bv => wires (asg s) (bv_bits bv) = [1; 0; 1; 0; 0; 1] /\
             bv_vals bv = Some [true; false; true; false; false; true] /\ satb (asg s) s = true
  | _ => False
  end.
Proof. vm_compute. auto. Qed.

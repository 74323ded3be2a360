(** Model of src/mp/bignat.rs. *)
From Coq Require Import ZArith Bool String List.
From Verif.Model Require Import Base CS Bellpepper Util Poly.
Import ListNotations.
Local Open Scope string_scope.
Local Open Scope Z_scope.
Local Open Scope list_scope.

Section Bignat.
Context {E : Env}.

(** ** Integers and limbs *)

(** bignat.rs:27-36 [limbs_to_nat]. *)
Definition limbs_to_nat (limbs : list Z) (limb_width : nat) : Z :=
  fold_left (fun acc limb => Z.shiftl acc (Z.of_nat limb_width) + f_to_nat limb) (rev limbs) 0.

(** bignat.rs:38-43 [int_with_n_ones]. *)
Definition int_with_n_ones (n : nat) : Z := Z.shiftl 1 (Z.of_nat n) - 1.

(** num-bigint [BigInt::bits]: bit length of the magnitude. *)
Definition bigint_bits (n : Z) : nat :=
  if n =? 0 then 0%nat else S (Z.to_nat (Z.log2 (Z.abs n))).

(** bignat.rs:55-61: [n_limbs] times, low bits and shift. *)
Fixpoint split_limbs (n_limbs limb_width : nat) (nat_ : Z) : res (list Z) :=
  match n_limbs with
  | O => Ok []
  | S n =>
      let? r := unwrap (nat_to_f (Z.land nat_ (int_with_n_ones limb_width))) in
      let? rs := split_limbs n limb_width (Z.shiftr nat_ (Z.of_nat limb_width)) in
      Ok (r :: rs)
  end.

(** bignat.rs:47-69 [nat_to_limbs]. *)
Definition nat_to_limbs (nat_ : Z) (limb_width n_limbs : nat) : res (list Z) :=
  if (bigint_bits nat_ <=? n_limbs * limb_width)%nat
  then split_limbs n_limbs limb_width nat_
  else Err Unsatisfiable.

(** num-bigint division and remainder: truncating, panic on zero divisor. *)
Definition bigint_div (a b : Z) : res Z := if b =? 0 then Panic else Ok (Z.quot a b).
(** num-bigint remainder: truncating, panic on zero divisor. *)
Definition bigint_rem (a b : Z) : res Z := if b =? 0 then Panic else Ok (Z.rem a b).

(** ** The structure *)

(** bignat.rs:72-77 [BigNatParams]. *)
Record params := mkParams { min_bits : nat; max_word : Z; limb_width : nat; n_limbs : nat }.

(** bignat.rs:80-89 [BigNatParams::new]. *)
Definition params_new (limb_width n_limbs : nat) : params :=
  mkParams 0 (Z.shiftl 1 (Z.of_nat limb_width) - 1) limb_width n_limbs.

(** bignat.rs:94-103 [BigNat]. *)
Record bignat := mkBigNat {
  limbs : list LC;
  limb_values : option (list Z);
  value : option Z;
  bparams : params
}.

(** A number with other parameters: an assignment to the field [params] (e.g. bignat.rs:582). *)
Definition with_params (b : bignat) (p : params) : bignat :=
  mkBigNat (limbs b) (limb_values b) (value b) p.
(** An assignment to [params.min_bits] (bignat.rs:582, 620, 910). *)
Definition set_min_bits (b : bignat) (m : nat) : bignat :=
  let p := bparams b in
  with_params b (mkParams m (max_word p) (limb_width p) (n_limbs p)).

(** bignat.rs:112-119 [From<BigNat> for Polynomial]. *)
Definition to_poly (b : bignat) : polynomial := mkPoly (limbs b) (limb_values b).

(** Captured values of a run of allocations; [None] for those whose closure was not called. *)
Definition captured (xs : list (var * option Z)) : list Z :=
  flat_map (fun p => match snd p with Some v => [v] | None => [] end) xs.
(** The allocated limbs as linear combinations (bignat.rs:125-178 and 209-260). *)
Definition xs_lcs (xs : list (var * option Z)) : list LC := map (fun p => lc_var (fst p)) xs.

(** bignat.rs:125-178 [alloc_from_limbs]. *)
Definition alloc_from_limbs (f : res (list Z)) (mw : option Z) (w n : nat) : prog bignat :=
  let clos (i : nat) : res Z :=
    match f with
    | Ok vs => if (List.length vs =? n)%nat then idx vs i else Err Unsatisfiable
    | Err _ => Err IoError
    | Panic => Panic
    end in
  let! xs := mapM (fun i => alloc (Nmi "limb " i "") (clos i)) (seq 0 n) in
  let '(value, lvs) :=
    match captured xs, f with
    | [], _ => (None, None)
    | _, Ok vs => (Some (limbs_to_nat vs w), Some vs)
    | _, _ => (None, None)
    end in
  Ret (mkBigNat (xs_lcs xs) lvs value
        (mkParams 0 (match mw with Some m => m | None => int_with_n_ones w end) w n)).

(** bignat.rs:181-204 [from_limbs]. *)
Definition from_limbs (ns : list num) (w : nat) : bignat :=
  let lvs := all_some (map n_val ns) in
  mkBigNat (map n_lc ns) lvs (option_map (fun vs => limbs_to_nat vs w) lvs)
    (mkParams 0 (int_with_n_ones w) w (List.length ns)).

(** bignat.rs:209-257 [alloc_from_nat]. *)
Definition alloc_from_nat (f : res Z) (w n : nat) : prog bignat :=
  let all := let? v := f in let? vs := nat_to_limbs v w n in Ok (vs, v) in
  let clos (i : nat) : res Z :=
    match all with
    | Ok (vs, _) => idx vs i
    | Err _ => Err IoError
    | Panic => Panic
    end in
  let! xs := mapM (fun i => alloc (Nmi "limb " i "") (clos i)) (seq 0 n) in
  let '(value, lvs) :=
    match captured xs, all with
    | [], _ => (None, None)
    | cs, Ok (_, v) => (Some v, Some cs)
    | _, _ => (None, None)
    end in
  Ret (mkBigNat (xs_lcs xs) lvs value (params_new w n)).

(** bignat.rs:300-309 [as_limbs]. *)
Definition as_limbs (b : bignat) : res (list num) :=
  rmapM (fun p =>
    match limb_values b with
    | None => Ok (mkNum (snd p) None)
    | Some vs => let? v := idx vs (fst p) in Ok (mkNum (snd p) (Some v))
    end) (combine (seq 0 (List.length (limbs b))) (limbs b)).

(** bignat.rs:311-318 [inputize]. *)
Definition bn_inputize (b : bignat) : prog unit :=
  iterM (fun p =>
    ns (Nmi "limb " (fst p) "") (
      let! (x, _) := alloc_input (Nm "alloc") (let? vs := grab (limb_values b) in idx vs (fst p)) in
      enforce (Nm "eq") lc_zero lc_zero (lc_sub (lc_var x) (snd p))))
    (combine (seq 0 (List.length (limbs b))) (limbs b)).

(** bignat.rs:624-638 [enforce_limb_width_agreement]. *)
Definition width_agreement (a b : bignat) : res nat :=
  if (limb_width (bparams a) =? limb_width (bparams b))%nat
  then Ok (limb_width (bparams a)) else Err Unsatisfiable.

(** bignat.rs:329-347, the body of [equal] once [self] is the longer operand. *)
Definition equal_ge (a b : bignat) : prog unit :=
  let! _ := lift (width_agreement a b) in
  let n := List.length (limbs b) in
  let! _ := iterM (fun i =>
     enforce (Nmi "equal " i "") lc_zero lc_zero
       (lc_sub (nth i (limbs a) lc_zero) (nth i (limbs b) lc_zero))) (seq 0 n) in
  iterM (fun i => enforce (Nmi "equal " i "") lc_zero lc_zero (nth i (limbs a) lc_zero))
    (seq n (List.length (limbs a) - n)).

(** bignat.rs:321-348 [equal]. *)
Definition equal (a b : bignat) : prog unit :=
  if (List.length (limbs a) <? List.length (limbs b))%nat then equal_ge b a else equal_ge a b.

(** bignat.rs:353-451 [equals]. *)
Definition equals (a b : allocated_num) : prog Boolean :=
  let r_value := match an_val a, an_val b with
                 | Some x, Some y => Some (x =? y)
                 | _, _ => None
                 end in
  let! r := ns (Nm "r") (ab_alloc r_value) in
  let! delta := ns (Nm "delta") (an_alloc
     (let? x := unwrap (an_val a) in let? y := unwrap (an_val b) in Ok (fsub x y))) in
  let a_b := lc_sub (lc_var (an_var a)) (lc_var (an_var b)) in
  let! _ := enforce (Nm "delta = (a - b)") a_b (lc_var ONE) (lc_var (an_var delta)) in
  let! delta_inv := ns (Nm "delta_inv") (an_alloc
     (let? d := unwrap (an_val delta) in
      if d =? 0 then Ok fone else unwrap (finvert d))) in
  let! t := ns (Nm "t") (an_alloc
     (let? d := unwrap (an_val delta) in let? i := unwrap (an_val delta_inv) in Ok (fmul d i))) in
  let t_1 := lc_sub (lc_var (an_var t)) (lc_var ONE) in
  let! _ := enforce (Nm "t = (a - b) * delta_inv") a_b (lc_var (an_var delta_inv))
              (lc_var (an_var t)) in
  let! _ := enforce (Nm "(a - b) * (t - 1) == 0") a_b t_1 lc_zero in
  let! _ := enforce (Nm "(a - b) * r == 0") a_b (lc_var (ab_var r)) lc_zero in
  let! _ := enforce (Nm "(t - 1) * (r - 1) == 0") t_1
              (lc_sub (lc_var (ab_var r)) (lc_var ONE)) lc_zero in
  Ret (BIs r).

(** bignat.rs:453-498 [is_equal]. *)
Definition is_equal (a b : bignat) : prog Boolean :=
  if negb (List.length (limbs a) =? List.length (limbs b))%nat then Fail Unsatisfiable else
  let! _ := lift (width_agreement a b) in
  foldM (fun rolling i =>
    let! sl := ns (Nmi "self " i "") (an_alloc (let? vs := grab (limb_values a) in idx vs i)) in
    let! _ := enforce (Nmi "equal self " i "") lc_zero lc_zero
       (lc_sub (nth i (limbs a) lc_zero) (lc_var (an_var sl))) in
    let! ol := ns (Nmi "other " i "") (an_alloc (let? vs := grab (limb_values b) in idx vs i)) in
    let! _ := enforce (Nmi "equal other " i "") lc_zero lc_zero
       (lc_sub (nth i (limbs b) lc_zero) (lc_var (an_var ol))) in
    let! e := ns (Nmi "eq " i "") (equals sl ol) in
    ns (Nmi "and " i "") (bool_and e rolling))
    (seq 0 (List.length (limbs a))) (BConst true).

(** bignat.rs:505-507 and 519-524: limbs paired with their values ([vs[i]] may panic). *)
Definition limb_nums (b : bignat) : list (res num) :=
  map (fun p =>
    match limb_values b with
    | None => Ok (mkNum (snd p) None)
    | Some vs => let? v := idx vs (fst p) in Ok (mkNum (snd p) (Some v))
    end) (combine (seq 0 (List.length (limbs b))) (limbs b)).

(** bignat.rs:500-512 [assert_well_formed]. *)
Definition assert_well_formed (b : bignat) : prog unit :=
  iterM (fun p =>
    let! n := lift (snd p) in
    ns (Nmi "" (fst p) "") (fits_in_bits n (limb_width (bparams b))))
    (combine (seq 0 (List.length (limbs b))) (limb_nums b)).

(** bignat.rs:515-547 [decompose]. *)
Definition bn_decompose (b : bignat) : prog bitvector :=
  let! bvs := mapM (fun p =>
    let! n := lift (snd p) in
    ns (Nmi "subdecmop " (fst p) "") (num_decompose n (limb_width (bparams b))))
    (combine (seq 0 (List.length (limbs b))) (limb_nums b)) in
  let values := flat_map (fun bv => match bv_vals bv with Some vs => vs | None => [] end) bvs in
  Ret (mkBV (flat_map bv_bits bvs)
            (match values with [] => None | _ => Some values end)
            (flat_map bv_allocs bvs)).

(** bignat.rs:262-289 [from_num]. *)
Definition from_num (n : num) (w k : nat) : prog bignat :=
  let! b := ns (Nm "bignat") (alloc_from_nat (rmap f_to_nat (grab (n_val n))) w k) in
  let! bv := ns (Nm "bv") (bn_decompose b) in
  let! _ := ns (Nm "n") (num_is_equal n bv) in
  Ret b.

(** ** Grouping *)

(** Assignment to the [k]-th element, as in [values[k].add_assign] (bignat.rs:1200). *)
Fixpoint update {A} (k : nat) (f : A -> A) (l : list A) : list A :=
  match l, k with
  | [], _ => []
  | a :: l, O => f a :: l
  | a :: l, S k => a :: update k f l
  end.

(** bignat.rs:1193-1202 and 1213-1221: shared loop; [add old shift x] accumulates. *)
Fixpoint group_loop {A} (add : A -> Z -> A -> A) (block : Z) (lpg : nat)
    (i : nat) (shift : Z) (xs : list A) (acc : list A) : res (list A) :=
  match xs with
  | [] => Ok acc
  | x :: xs =>
      let shift := if (i mod lpg =? 0)%nat then fone else shift in
      if (i / lpg <? List.length acc)%nat then
        group_loop add block lpg (S i) (fmul shift block) xs
          (update (i / lpg) (fun old => add old shift x) acc)
      else Panic
  end.

(** bignat.rs:1189-1192: 2^limb_width by repeated doubling. *)
Definition limb_block (w : nat) : Z := Nat.iter w fdouble fone.

(** bignat.rs:1224-1227: bits at multiples of the limb width. *)
Definition ones_at (w lpg : nat) : Z :=
  fold_left (fun acc i => Z.setbit acc (Z.of_nat (i * w))) (seq 0 lpg) 0.

(** bignat.rs:1185: number of groups, [(n - 1) / lpg + 1] on usize.  With [n = 0] and without
    overflow checks [n - 1] is 2^64 - 1: one limb per group gives 2^64, which wraps to 0; more give
    a vector that cannot be allocated (here [Panic]). *)
Definition group_count (n lpg : nat) : res nat :=
  if (lpg =? 0)%nat then Panic else
  match n with
  | O => if overflow_checks || negb (lpg =? 1)%nat then Panic else Ok 0%nat
  | S n1 => Ok (n1 / lpg + 1)%nat
  end.

(** bignat.rs:1184-1239 [group_limbs]. *)
Definition group_limbs (b : bignat) (lpg : nat) : res bignat :=
  let? n_groups := group_count (List.length (limbs b)) lpg in
  let w := limb_width (bparams b) in
  let? lvs := match limb_values b with
     | None => Ok None
     | Some vs =>
         let? g := group_loop (fun old s v => fadd old (fmul s v)) (limb_block w) lpg 0 fone vs
                     (repeat fzero n_groups) in Ok (Some g)
     end in
  let? ls := group_loop (fun old s l => lc_add old (lc_scale s l)) (limb_block w) lpg 0 fone
               (limbs b) (repeat lc_zero n_groups) in
  Ok (mkBigNat ls lvs (value b)
       (mkParams (min_bits (bparams b)) (ones_at w lpg * max_word (bparams b)) (w * lpg)
                 (List.length ls))).

(** bignat.rs:549-565 [recompose]. *)
Definition recompose (bv : bitvector) (w : nat) : res bignat :=
  let? ns := rmapM (fun p =>
     match bv_vals bv with
     | None => Ok (mkNum (snd p) None)
     | Some vs => let? v := idx vs (fst p) in Ok (mkNum (snd p) (Some (f_of_bool v)))
     end) (combine (seq 0 (List.length (bv_bits bv))) (bv_bits bv)) in
  group_limbs (from_limbs ns 1) w.

(** bignat.rs:567-584 [enforce_full_bits]; returns the number with updated parameters. *)
Definition enforce_full_bits (b : bignat) : prog bignat :=
  let! v := lift (match limb_values b with
     | None => Ok None
     | Some vs => let? (v, _) := unwrap (vec_pop vs) in Ok (Some v)
     end) in
  let! (lc, _) := lift (unwrap (vec_pop (limbs b))) in
  let! bv := ns (Nm "decomp") (num_decompose (mkNum lc v) (limb_width (bparams b))) in
  let! bits := lift (bv_into_bits bv) in
  let! (last, _) := lift (unwrap (vec_pop bits)) in
  let! _ := ns (Nm "1") (bit_constrain_value last true) in
  Ret (set_min_bits b (limb_width (bparams b) * n_limbs (bparams b))).

(** bignat.rs:597-603: number of set upper bits. *)
Fixpoint count_bits (bs : list bit) (acc : Z) : res Z :=
  match bs with
  | [] => Ok acc
  | b :: bs => let? v := grab (b_val b) in
               count_bits bs (if v then fadd acc fone else acc)
  end.

(** bignat.rs:611-617: the sum of the upper bits. *)
Definition sum_bits (bs : list bit) : LC := flat_map b_lc bs.

(** bignat.rs:592 [skip(min_bits - 1)] of [n] bits: without overflow checks a bound of 0 skips all. *)
Definition min_skip (mb n : nat) : res nat :=
  match mb with O => if overflow_checks then Panic else Ok n | S k => Ok k end.

(** bignat.rs:586-622 [enforce_min_bits]; returns the number with updated parameters. *)
Definition enforce_min_bits (b : bignat) (mb : nat) : prog bignat :=
  let! bv := ns (Nm "decomp") (bn_decompose b) in
  let! bits := lift (bv_into_bits bv) in
  let! k := lift (min_skip mb (List.length bits)) in
  let upper := skipn k bits in
  let! (x, _) := alloc (Nm "inverse") (let? s := count_bits upper fzero in unwrap (finvert s)) in
  let! _ := enforce (Nm "inverse exists") (lc_var x) (sum_bits upper) (lc_var ONE) in
  Ret (set_min_bits b mb).

(** bignat.rs:641-673 [concat]: [a] is the high-order part. *)
Definition concat (a b : bignat) : res bignat :=
  let? w := width_agreement a b in
  let pa := bparams a in let pb := bparams b in
  let mb := if (0 <? min_bits pa)%nat then (min_bits pa + limb_width pb * n_limbs pb)%nat
            else min_bits pb in
  let lvs := match limb_values b, limb_values a with
             | Some x, Some y => Some (x ++ y)
             | x, _ => x
             end in
  let v := match value a, value b with
           | Some sv, Some ov => Some (Z.shiftl sv (Z.of_nat (limb_width pb * n_limbs pb)) + ov)
           | _, _ => None
           end in
  Ok (mkBigNat (limbs b ++ limbs a) lvs v
       (mkParams mb (Z.max (max_word pa) (max_word pb)) w (n_limbs pa + n_limbs pb))).

(** bignat.rs:679-685: [k] iterations of the popping loop. *)
Fixpoint pop_limbs (k : nat) (b : bignat) : res bignat :=
  match k with
  | O => Ok b
  | S k =>
      let ls := removelast (limbs b) in
      match limb_values b with
      | None => pop_limbs k (mkBigNat ls None (value b) (bparams b))
      | Some vs =>
          let? (lv, vs') := unwrap (vec_pop vs) in
          let? v := unwrap (value b) in
          let v' := v - Z.shiftl (f_to_nat lv)
                          (Z.of_nat (List.length ls * limb_width (bparams b))) in
          pop_limbs k (mkBigNat ls (Some vs') (Some v') (bparams b))
      end
  end.

(** bignat.rs:676-692 [truncate_limbs]. *)
Definition truncate_limbs (b : bignat) (n : nat) : res bignat :=
  if (n <? List.length (limbs b))%nat then
    let? b' := pop_limbs (List.length (limbs b) - n) b in
    let p := bparams b in
    Ok (with_params b' (mkParams
      (if (n * limb_width p <? min_bits p)%nat then 0%nat else min_bits p)
      (max_word p) (limb_width p) n))
  else Ok b.

(** bignat.rs:694-709 [from_poly]. *)
Definition from_poly (p : polynomial) (w : nat) (mw : Z) : bignat :=
  mkBigNat (p_coeffs p) (p_vals p) (option_map (fun vs => limbs_to_nat vs w) (p_vals p))
    (mkParams 0 mw w (List.length (p_coeffs p))).

(** ** Equality after carrying *)

(** bignat.rs:730-739: witness of the carry of limb [i]; [vs[i]] may panic, a missing carry-in
    value panics, a negative quotient has no field representation and panics. *)
Definition carry_witness (a b : bignat) (mw base : Z) (carry_in : option Z) (i : nat) : res Z :=
  let? vs := grab (limb_values a) in
  let? x := idx vs i in
  let? c := unwrap carry_in in
  let? ws := grab (limb_values b) in
  let? y := idx ws i in
  unwrap (nat_to_f (Z.quot (f_to_nat x + f_to_nat c + mw - f_to_nat y) base)).

(** bignat.rs:729-770: one limb; the state is (accumulated_extra, carry_in). *)
Definition carry_step (a b : bignat) (n : nat) (mw base : Z) (carry_bits : nat)
    (s : Z * num) (i : nat) : prog (Z * num) :=
  let '(extra, carry_in) := s in
  let! carry := ns (Nmi "carry value " i "") (num_alloc (carry_witness a b mw base (n_val carry_in) i)) in
  let extra := extra + mw in
  let! fmw := lift (unwrap (nat_to_f mw)) in
  let! fbase := lift (unwrap (nat_to_f base)) in
  let! fextra := lift (unwrap (nat_to_f (Z.rem extra base))) in
  let! _ := enforce (Nmi "carry " i "") lc_zero lc_zero
     (lc_sub (lc_sub (lc_add (lc_sub (lc_add (n_lc carry_in) (nth i (limbs a) lc_zero))
                                     (nth i (limbs b) lc_zero))
                             (lc_const fmw))
                     (lc_scale fbase (n_lc carry)))
             (lc_const fextra)) in
  let extra := Z.quot extra base in
  let! _ :=
    if (i <? n - 1)%nat
    then ns (Nmi "carry " i " decomp") (fits_in_bits carry carry_bits)
    else
      let! fx := lift (unwrap (nat_to_f extra)) in
      enforce (Nmi "carry " i " is out") lc_zero lc_zero
        (lc_sub (n_lc carry) (lc_const fx)) in
  Ret (extra, carry).

(** bignat.rs:713-789 [equal_when_carried]. *)
Definition equal_when_carried (a b : bignat) : prog unit :=
  let! w := lift (width_agreement a b) in
  let n := Nat.min (List.length (limbs a)) (List.length (limbs b)) in
  let base := Z.shiftl 1 (Z.of_nat w) in
  let mw := Z.max (max_word (bparams a)) (max_word (bparams b)) in
  let carry_bits := carry_bits_f64 mw w in
  let! _ := foldM (carry_step a b n mw base carry_bits) (seq 0 n) (0, mkNum lc_zero (Some fzero)) in
  let! _ := iterM (fun i => enforce (Nmi "zero self " i "") lc_zero lc_zero (nth i (limbs a) lc_zero))
     (seq n (List.length (limbs a) - n)) in
  iterM (fun i => enforce (Nmi "zero other " i "") lc_zero lc_zero (nth i (limbs b) lc_zero))
     (seq n (List.length (limbs b) - n)).

(** bignat.rs:794-808 [equal_when_carried_regroup]. *)
Definition equal_when_carried_regroup (a b : bignat) : prog unit :=
  let! w := lift (width_agreement a b) in
  let mw := Z.max (max_word (bparams a)) (max_word (bparams b)) in
  let carry_bits := carry_bits_f64 mw w in
  let! room := lift (usub CAPACITY carry_bits) in
  let! lpg := lift (if (w =? 0)%nat then Panic else Ok (room / w)%nat) in
  let! ga := lift (group_limbs a lpg) in
  let! gb := lift (group_limbs b lpg) in
  ns (Nm "grouped") (equal_when_carried ga gb).

(** ** Arithmetic *)

(** bignat.rs:984-1006 [verify_mult]. *)
Definition verify_mult (a b prod : bignat) : prog unit :=
  let! _ := lift (width_agreement a b) in
  let! _ := lift (width_agreement a prod) in
  let mw := Z.of_nat (Nat.min (n_limbs (bparams a)) (n_limbs (bparams b)))
              * max_word (bparams a) * max_word (bparams b) in
  let! pp := ns (Nm "poly product") (alloc_product (to_poly a) (to_poly b)) in
  ns (Nm "equal")
    (equal_when_carried_regroup (from_poly pp (limb_width (bparams b)) mw) prod).

(** num-integer [is_multiple_of] on BigInt. *)
Definition is_multiple_of (o s : Z) : bool := if s =? 0 then o =? 0 else Z.rem o s =? 0.

(** bignat.rs:811-835 [divides]. *)
Definition divides (a b : bignat) : prog unit :=
  let! _ := lift (width_agreement a b) in
  let! factor := ns (Nm "product") (alloc_from_nat
     (let? s := grab (value a) in let? o := grab (value b) in
      if is_multiple_of o s then bigint_div o s else Err Unsatisfiable)
     (limb_width (bparams b)) (n_limbs (bparams b))) in
  let! _ := ns (Nm "rangecheck") (assert_well_formed factor) in
  ns (Nm "multcheck") (verify_mult a factor b).

(** bignat.rs:837-852 [shift]. *)
Definition shift (b : bignat) (constant : Z) : res bignat :=
  match limbs b with
  | [] => Panic
  | l0 :: ls =>
      let? lvs := match limb_values b with
                  | None => Ok None
                  | Some [] => Panic
                  | Some (v :: vs) => Ok (Some (fadd v constant :: vs))
                  end in
      let p := bparams b in
      let mw := max_word p + f_to_nat constant in
      if mw <=? Z.shiftl 1 (Z.of_nat CAPACITY) then
        Ok (mkBigNat (lc_add l0 (lc_const constant) :: ls) lvs
              (option_map (fun v => v + f_to_nat constant) (value b))
              (mkParams (min_bits p) mw (limb_width p) (n_limbs p)))
      else Panic
  end.

(** bignat.rs:854-870 [scale]. *)
Definition scale (b : bignat) (constant : Z) : res bignat :=
  let p := bparams b in
  let mw := max_word p * f_to_nat constant in
  if mw <=? Z.shiftl 1 (Z.of_nat CAPACITY) then
    Ok (mkBigNat (map (lc_scale constant) (limbs b))
          (option_map (map (fun v => fmul v constant)) (limb_values b))
          (option_map (fun v => v * f_to_nat constant) (value b))
          (mkParams (min_bits p) mw (limb_width p) (n_limbs p)))
  else Panic.

(** bignat.rs:928-933 and 938-947: combine two optional entries; both missing is unreachable!(). *)
Definition opt2 {A} (add : A -> A -> A) (x y : option A) : res A :=
  match x, y with
  | Some a, Some b => Ok (add a b)
  | Some a, None => Ok a
  | None, Some b => Ok b
  | None, None => Panic
  end.

(** bignat.rs:920-966 [add]. *)
Definition add (a b : bignat) : res bignat :=
  let? _ := width_agreement a b in
  let pa := bparams a in let pb := bparams b in
  let n := Nat.max (n_limbs pa) (n_limbs pb) in
  let? ls := rmapM (fun i => opt2 lc_add (nth_error (limbs a) i) (nth_error (limbs b) i)) (seq 0 n) in
  let? lvs := match limb_values a, limb_values b with
     | Some xs, Some ys =>
         let? vs := rmapM (fun i => opt2 fadd (nth_error xs i) (nth_error ys i)) (seq 0 n) in
         Ok (Some vs)
     | _, _ => Ok None
     end in
  let v := match value a, value b with Some x, Some y => Some (x + y) | _, _ => None end in
  Ok (mkBigNat ls lvs v
       (mkParams (Nat.max (min_bits pa) (min_bits pb)) (max_word pa + max_word pb)
                 (limb_width pa) n)).

(** bignat.rs:872-890 [sub]. *)
Definition sub (a b : bignat) : prog bignat :=
  let! diff := ns (Nm "diff") (alloc_from_nat
     (let? s := grab (value a) in let? o := grab (value b) in Ok (s - o))
     (limb_width (bparams a)) (n_limbs (bparams a))) in
  let! sum := lift (add b diff) in
  let! _ := ns (Nm "eq") (equal_when_carried_regroup a sum) in
  Ret diff.

(** bignat.rs:892-918 [mult]. *)
Definition mult (a b : bignat) : prog bignat :=
  let! _ := lift (width_agreement a b) in
  let pa := bparams a in let pb := bparams b in
  let! prod := ns (Nm "product") (alloc_from_nat
     (let? s := grab (value a) in let? o := grab (value b) in Ok (s * o))
     (limb_width pb) (n_limbs pb + n_limbs pa)) in
  let prod := if ((0 <? min_bits pa) && (0 <? min_bits pb))%nat
              then set_min_bits prod (min_bits pa + min_bits pb - 1) else prod in
  let! _ := ns (Nm "rangecheck") (assert_well_formed prod) in
  let! _ := ns (Nm "multcheck") (verify_mult a b prod) in
  Ret prod.

(** bignat.rs:1275-1278 [n_bits]. *)
Definition n_bits (b : bignat) : res nat :=
  let p := bparams b in
  if (0 <? n_limbs p)%nat
  then Ok (limb_width p * (n_limbs p - 1) + bigint_bits (max_word p))%nat
  else Panic.

(** bignat.rs:1046-1051 / 1052-1058: word bounds of the two sides. *)
Definition left_max_word (a b : bignat) : Z :=
  Z.of_nat (Nat.min (List.length (limbs a)) (List.length (limbs b)))
    * max_word (bparams a) * max_word (bparams b).
(** bignat.rs:1052-1058: word bound of the right side. *)
Definition right_max_word (q m r : bignat) : Z :=
  Z.of_nat (Nat.min (List.length (limbs q)) (List.length (limbs m)))
    * max_word (bparams q) * max_word (bparams m) + max_word (bparams r).

(** bignat.rs:1008-1064 [assert_product_mod]. *)
Definition assert_product_mod (a b m r : bignat) : prog bignat :=
  let! _ := lift (width_agreement a b) in
  let! _ := lift (width_agreement a m) in
  let! _ := lift (width_agreement a r) in
  let w := limb_width (bparams a) in
  let! q := ns (Nm "quotient") (alloc_from_nat
     (let? x := grab (value a) in let? y := grab (value b) in let? z := grab (value m) in
      bigint_div (x * y) z)
     w (List.length (limbs a) + List.length (limbs b))) in
  let! _ := ns (Nm "quotient rangecheck") (assert_well_formed q) in
  let! lhs := ns (Nm "left") (alloc_product (to_poly a) (to_poly b)) in
  let! right_product := ns (Nm "right_product") (alloc_product (to_poly q) (to_poly m)) in
  let right := poly_sum right_product (to_poly r) in
  let left_int := from_poly lhs w (left_max_word a b) in
  let right_int := from_poly right w (right_max_word q m r) in
  let! _ := ns (Nm "carry") (equal_when_carried_regroup left_int right_int) in
  Ret q.

(** bignat.rs:1075-1077 and 1146-1147: number of quotient limbs. *)
Definition quotient_limbs (bits mod_min_bits w : nat) : res nat :=
  if (w =? 0)%nat then Panic else Ok ((bits - mod_min_bits - 1) / w + 1)%nat.

(** bignat.rs:1067-1136 [mult_mod]. *)
Definition mult_mod (a b m : bignat) : prog (bignat * bignat) :=
  let! w := lift (width_agreement a b) in
  let! na := lift (n_bits a) in
  let! nb := lift (n_bits b) in
  let! ql := lift (quotient_limbs (na + nb) (min_bits (bparams m)) w) in
  let operands := let? x := grab (value a) in let? y := grab (value b) in
                  let? z := grab (value m) in Ok (x * y, z) in
  let! q := ns (Nm "quotient") (alloc_from_nat (let? (x, z) := operands in bigint_div x z) w ql) in
  let! _ := ns (Nm "quotient rangecheck") (assert_well_formed q) in
  let! r := ns (Nm "remainder") (alloc_from_nat (let? (x, z) := operands in bigint_rem x z)
     w (List.length (limbs m))) in
  let! _ := ns (Nm "remainder rangecheck") (assert_well_formed r) in
  let! lhs := ns (Nm "left") (alloc_product (to_poly a) (to_poly b)) in
  let! right_product := ns (Nm "right_product") (alloc_product (to_poly q) (to_poly m)) in
  let right := poly_sum right_product (to_poly r) in
  let left_int := from_poly lhs w (left_max_word a b) in
  let right_int := from_poly right w (right_max_word q m r) in
  let! _ := ns (Nm "carry") (equal_when_carried_regroup left_int right_int) in
  Ret (q, r).

(** bignat.rs:1139-1181 [red_mod]. *)
Definition red_mod (a m : bignat) : prog bignat :=
  let! w := lift (width_agreement a m) in
  let! na := lift (n_bits a) in
  let! ql := lift (quotient_limbs na (min_bits (bparams m)) w) in
  let operands := let? x := grab (value a) in let? z := grab (value m) in Ok (x, z) in
  let! q := ns (Nm "quotient") (alloc_from_nat (let? (x, z) := operands in bigint_div x z) w ql) in
  let! _ := ns (Nm "quotient rangecheck") (assert_well_formed q) in
  let! r := ns (Nm "remainder") (alloc_from_nat (let? (x, z) := operands in bigint_rem x z)
     w (List.length (limbs m))) in
  let! _ := ns (Nm "remainder rangecheck") (assert_well_formed r) in
  let! right_product := ns (Nm "right_product") (alloc_product (to_poly q) (to_poly m)) in
  let right := poly_sum right_product (to_poly r) in
  let right_int := from_poly right w (right_max_word q m r) in
  let! _ := ns (Nm "carry") (equal_when_carried_regroup a right_int) in
  Ret r.

(** [Vec::push] until the length is [n]. *)
Definition pad_to {A} (n : nat) (d : A) (l : list A) : list A := l ++ repeat d (n - List.length l).

(** bignat.rs:1241-1259 [with_n_limbs]. *)
Definition with_n_limbs (b : bignat) (n : nat) : res bignat :=
  let p := bparams b in
  if (n <? n_limbs p)%nat then Panic
  else if (n =? n_limbs p)%nat then Ok b
  else Ok (mkBigNat (pad_to n lc_zero (limbs b)) (option_map (pad_to n fzero) (limb_values b))
             (value b) (mkParams (min_bits p) (max_word p) (limb_width p) n)).

(** bignat.rs:1261-1273 [one]. *)
Definition bn_one (w : nat) : bignat :=
  mkBigNat [lc_var ONE] (Some [fone]) (Some 1) (mkParams 1 1 w 1).

End Bignat.

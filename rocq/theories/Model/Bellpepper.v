(** External gadgets of bellpepper / bellpepper-core 0.4 used by /repo (trusted transcription):
    AllocatedNum, AllocatedBit, Boolean, Num, sha256. *)
From Coq Require Import ZArith Bool String List.
From Verif.Model Require Import Base Sha256 CS.
Import ListNotations.
Local Open Scope string_scope.
Local Open Scope Z_scope.
Local Open Scope list_scope.

Section Bellpepper.
Context {E : Env}.

(** bellpepper-core num.rs [AllocatedNum]: a variable and the captured value. *)
Record allocated_num := mkAN { an_val : option Z; an_var : var }.
(** bellpepper-core boolean.rs [AllocatedBit]. *)
Record allocated_bit := mkAB { ab_var : var; ab_val : option bool }.
(** bellpepper-core boolean.rs [Boolean]. *)
Inductive Boolean := BIs (b : allocated_bit) | BNot (b : allocated_bit) | BConst (b : bool).

(** The scalar of a bit. *)
Definition f_of_bool (b : bool) : Z := if b then fone else fzero.

(** [AllocatedNum::alloc]. *)
Definition an_alloc (w : res Z) : prog allocated_num :=
  let! (x, v) := alloc (Nm "num") w in Ret (mkAN v x).

(** [AllocatedNum::add]: allocates the sum and enforces (a + b) * 1 = sum. *)
Definition an_add (a b : allocated_num) : prog allocated_num :=
  let! (x, v) := alloc (Nm "sum num")
     (let? va := grab (an_val a) in let? vb := grab (an_val b) in Ok (fadd va vb)) in
  let! _ := enforce (Nm "addition constraint")
     (lc_add (lc_var (an_var a)) (lc_var (an_var b))) (lc_var ONE) (lc_var x) in
  Ret (mkAN v x).

(** [AllocatedBit::alloc]: the recorded value is the argument, even when closures are not called. *)
Definition ab_alloc (value : option bool) : prog allocated_bit :=
  let! (x, _) := alloc (Nm "boolean") (let? b := grab value in Ok (f_of_bool b)) in
  let! _ := enforce (Nm "boolean constraint")
     (lc_sub (lc_var ONE) (lc_var x)) (lc_var x) lc_zero in
  Ret (mkAB x value).

(** [Boolean::get_value]. *)
Definition bool_val (b : Boolean) : option bool :=
  match b with
  | BIs a => ab_val a
  | BNot a => option_map negb (ab_val a)
  | BConst c => Some c
  end.

(** [Boolean::lc(one, coeff)]. *)
Definition bool_lc (b : Boolean) (coeff : Z) : LC :=
  match b with
  | BIs a => [(coeff, ab_var a)]
  | BNot a => [(coeff, ONE); (- coeff, ab_var a)]
  | BConst true => [(coeff, ONE)]
  | BConst false => lc_zero
  end.

(** boolean.rs [Boolean::not]. *)
Definition bool_not (b : Boolean) : Boolean :=
  match b with BIs a => BNot a | BNot a => BIs a | BConst c => BConst (negb c) end.

(** The bit of the scalar captured by an allocation of a bit. *)
Definition bit_of_f (v : Z) : bool := v =? fone.

(** [AllocatedBit::and], [and_not], [nor]: allocate the result and enforce the product. *)
Definition ab_and (a b : allocated_bit) : prog allocated_bit :=
  let! (x, v) := alloc (Nm "and result")
     (let? va := grab (ab_val a) in let? vb := grab (ab_val b) in Ok (f_of_bool (va && vb))) in
  let! _ := enforce (Nm "and constraint") (lc_var (ab_var a)) (lc_var (ab_var b)) (lc_var x) in
  Ret (mkAB x (option_map bit_of_f v)).

(** [AllocatedBit::and_not]. *)
Definition ab_and_not (a b : allocated_bit) : prog allocated_bit :=
  let! (x, v) := alloc (Nm "and not result")
     (let? va := grab (ab_val a) in let? vb := grab (ab_val b) in Ok (f_of_bool (va && negb vb))) in
  let! _ := enforce (Nm "and not constraint") (lc_var (ab_var a))
     (lc_sub (lc_var ONE) (lc_var (ab_var b))) (lc_var x) in
  Ret (mkAB x (option_map bit_of_f v)).

(** [AllocatedBit::nor]. *)
Definition ab_nor (a b : allocated_bit) : prog allocated_bit :=
  let! (x, v) := alloc (Nm "nor result")
     (let? va := grab (ab_val a) in let? vb := grab (ab_val b) in
      Ok (f_of_bool (negb va && negb vb))) in
  let! _ := enforce (Nm "nor constraint") (lc_sub (lc_var ONE) (lc_var (ab_var a)))
     (lc_sub (lc_var ONE) (lc_var (ab_var b))) (lc_var x) in
  Ret (mkAB x (option_map bit_of_f v)).

(** [Boolean::and]. *)
Definition bool_and (a b : Boolean) : prog Boolean :=
  match a, b with
  | BConst false, _ | _, BConst false => Ret (BConst false)
  | BConst true, x | x, BConst true => Ret x
  | BIs i, BNot n | BNot n, BIs i => let! r := ab_and_not i n in Ret (BIs r)
  | BNot a, BNot b => let! r := ab_nor a b in Ret (BIs r)
  | BIs a, BIs b => let! r := ab_and a b in Ret (BIs r)
  end.

(** [Boolean::or]: not (and (not a) (not b)). *)
Definition bool_or (a b : Boolean) : prog Boolean :=
  let! r := ns (Nm "not and (not a) (not b)") (bool_and (bool_not a) (bool_not b)) in
  Ret (bool_not r).

(** [Boolean::enforce_equal]. *)
Definition bool_enforce_equal (a b : Boolean) : prog unit :=
  match a, b with
  | BConst x, BConst y => if Bool.eqb x y then Ret tt else Fail Unsatisfiable
  | BConst true, x | x, BConst true =>
      enforce (Nm "enforce equal to one") lc_zero lc_zero (lc_sub (lc_var ONE) (bool_lc x 1))
  | BConst false, x | x, BConst false =>
      enforce (Nm "enforce equal to zero") lc_zero lc_zero (bool_lc x 1)
  | a, b =>
      enforce (Nm "enforce equal") lc_zero lc_zero (lc_sub (bool_lc a 1) (bool_lc b 1))
  end.

(** [AllocatedNum::conditionally_reverse]: (a, b) if the condition is false, (b, a) if true. *)
Definition an_conditionally_reverse (a b : allocated_num) (cond : Boolean)
  : prog (allocated_num * allocated_num) :=
  let pick (t f : allocated_num) : res Z :=
     let? c := grab (bool_val cond) in if c then grab (an_val t) else grab (an_val f) in
  let! c := ns (Nm "conditional reversal result 1") (an_alloc (pick b a)) in
  let! _ := enforce (Nm "first conditional reversal")
     (lc_sub (lc_var (an_var a)) (lc_var (an_var b))) (bool_lc cond 1)
     (lc_sub (lc_var (an_var a)) (lc_var (an_var c))) in
  let! d := ns (Nm "conditional reversal result 2") (an_alloc (pick a b)) in
  let! _ := enforce (Nm "second conditional reversal")
     (lc_sub (lc_var (an_var b)) (lc_var (an_var a))) (bool_lc cond 1)
     (lc_sub (lc_var (an_var b)) (lc_var (an_var d))) in
  Ret (c, d).

(** bellpepper-core num.rs [Num] (value and linear combination), [zero] and
    [add_bool_with_coeff]. *)
Record bp_num := mkBPN { bpn_val : option Z; bpn_lc : LC }.
(** bellpepper-core num.rs [Num::zero] (used at median.rs:30). *)
Definition bp_zero : bp_num := mkBPN (Some fzero) lc_zero.
(** bellpepper-core num.rs [Num::add_bool_with_coeff] (used at median.rs:36). *)
Definition bp_add_bool (n : bp_num) (b : Boolean) (coeff : Z) : bp_num :=
  mkBPN (match bpn_val n, bool_val b with
        | Some v, Some bv => Some (if bv then fadd v coeff else v)
        | _, _ => None
        end)
       (lc_add (bpn_lc n) (bool_lc b coeff)).

(** [boolean::u64_into_boolean_vec_le] on a present value: 64 allocated bits, low-order first. *)
Definition u64_into_boolean_vec_le (v : Z) : prog (list Boolean) :=
  mapM (fun i =>
    let! b := ns (Nmi "bit " i "") (ab_alloc (Some (Z.testbit v (Z.of_nat i)))) in
    Ret (BIs b)) (seq 0 64).

(** The values of a list of bits or words, when all are present. *)
Definition all_some {A} (l : list (option A)) : option (list A) :=
  fold_right (fun o acc => match o, acc with Some a, Some l => Some (a :: l) | _, _ => None end)
             (Some []) l.

(** [sha256::sha256]: asserts a whole number of bytes; 256 output bits.  The internal variables and
    constraints of the gadget are abstracted into the macro constraint [ShaC]. *)
Definition sha256_gadget (ins : list Boolean) : prog (list Boolean) :=
  if negb (Nat.eqb (Nat.modulo (List.length ins) 8) 0) then Crash else
  let digest := option_map sha256 (all_some (map bool_val ins)) in
  let! outs := mapM (fun i =>
     let! (x, v) := alloc (Nmi "sha256 out " i "")
        (let? d := grab digest in let? b := idx d i in Ok (f_of_bool b)) in
     Ret (mkAB x (option_map bit_of_f v))) (seq 0 256) in
  Enforce (Nm "sha256")
    (ShaC (map (fun b => bool_lc b 1) ins) (map (fun b => lc_var (ab_var b)) outs))
    (Ret (map BIs outs)).

End Bellpepper.

(** Model of src/lib.rs and src/util/{convert,bit,num,lazy}.rs. *)
From Coq Require Import ZArith Bool String DecimalString List.
From Verif.Model Require Import Base CS Bellpepper.
Import ListNotations.
Local Open Scope string_scope.
Local Open Scope Z_scope.
Local Open Scope list_scope.

Section Util.
Context {E : Env}.

(** ** src/lib.rs *)

(** lib.rs:33-43 [BitAccess::get_bit].  [i as u32] truncates the index; indexing the representation
    out of range panics. *)
Definition get_bit (x : Z) (i : nat) : res (option bool) :=
  if (Z.of_nat NUM_BITS <=? Z.of_nat i mod 4294967296) then Ok None
  else
    let? byte := idx (to_repr x) (i / 8) in
    let bit := Z.land (Z.shiftr byte (Z.of_nat (i mod 8))) 1 in
    Ok (Some (bit =? 1)).

(** ** src/util/convert.rs *)

(** convert.rs:15-19 [f_to_nat].  (The vector written by [write_be], lines 6-12, is unused.) *)
Definition f_to_nat (f : Z) : Z := from_bytes_le (to_repr f).

(** [Display] of a BigInt. *)
Definition bigint_display (n : Z) : string := NilZero.string_of_int (Z.to_int n).

(** One decimal digit. *)
Definition digit_value (c : Ascii.ascii) : option Z :=
  let n := Z.of_nat (Ascii.nat_of_ascii c) in
  if (48 <=? n) && (n <=? 57) then Some (n - 48) else None.

(** ff 0.13 [PrimeField::from_str_vartime]: [None] on the empty string, on a non-digit, and on a
    leading zero (other than "0"); otherwise Horner evaluation in the field. *)
Fixpoint from_str_digits (s : string) (acc : Z) : option Z :=
  match s with
  | EmptyString => Some acc
  | String c s' =>
      match digit_value c with
      | Some d => from_str_digits s' (fadd (fmul acc (from_u64 10)) (from_u64 d))
      | None => None
      end
  end.
(** ff [PrimeField::from_str_vartime] (convert.rs:24, header_step.rs:61-98): no empty string, no leading zero. *)
Definition from_str_vartime (s : string) : option Z :=
  match s with
  | EmptyString => None
  | "0" => Some fzero
  | String c _ =>
      match digit_value c with
      | Some d => if d =? 0 then None else from_str_digits s fzero
      | None => None
      end
  end.

(** convert.rs:23-25 [nat_to_f]. *)
Definition nat_to_f (n : Z) : option Z := from_str_vartime (bigint_display n).

(** convert.rs:29-32 [usize_to_f]. *)
Definition usize_to_f (n : Z) : Z := from_u64 n.

(** convert.rs:36-40 [f_to_usize]. *)
Definition f_to_usize (x : Z) : res Z :=
  let s := to_repr x in
  if forallb (fun b => b =? 0) (skipn 1 s) then idx s 0 else Panic.

(** ** src/util/bit.rs *)

(** bit.rs:11-16 [Bit]. *)
Record bit := mkBit { b_lc : LC; b_val : option bool }.
(** bit.rs:20-27 [Bitvector]. *)
Record bitvector := mkBV { bv_bits : list LC; bv_vals : option (list bool); bv_allocs : list bit }.

(** bit.rs:31-35 [Bitvector::reversed]. *)
Definition bv_reversed (b : bitvector) : bitvector :=
  mkBV (rev (bv_bits b)) (option_map (@rev bool) (bv_vals b)) (bv_allocs b).

(** bit.rs:37-41 [Bitvector::truncate]. *)
Definition bv_truncate (n : nat) (b : bitvector) : bitvector :=
  mkBV (firstn n (bv_bits b)) (option_map (firstn n) (bv_vals b)) (bv_allocs b).

(** bit.rs:43-48 [Bitvector::get]. *)
Definition bv_get (i : nat) (b : bitvector) : res (option bit) :=
  match nth_error (bv_bits b) i with
  | None => Ok None
  | Some lc =>
      match bv_vals b with
      | None => Ok (Some (mkBit lc None))
      | Some vs => let? v := idx vs i in Ok (Some (mkBit lc (Some v)))
      end
  end.

(** bit.rs:50-56 [Bitvector::shr]: [drain(0..i)] panics when [i] exceeds the length. *)
Definition bv_shr (i : nat) (b : bitvector) : res bitvector :=
  let? vs := match bv_vals b with
             | None => Ok None
             | Some vs => if (i <=? List.length vs)%nat then Ok (Some (skipn i vs)) else Panic
             end in
  if (i <=? List.length (bv_bits b))%nat
  then Ok (mkBV (skipn i (bv_bits b)) vs (bv_allocs b)) else Panic.

(** bit.rs:58-65 [Bitvector::shl]. *)
Definition bv_shl (i : nat) (b : bitvector) : bitvector :=
  mkBV (repeat lc_zero i ++ bv_bits b)
       (option_map (fun vs => repeat false i ++ vs)%list (bv_vals b)) (bv_allocs b).

(** [Vec::pop]. *)
Definition vec_pop {A} (l : list A) : option (A * list A) :=
  match rev l with [] => None | a :: r => Some (a, rev r) end.

(** bit.rs:67-76 [Bitvector::pop]: returns the bit and the shortened vector. *)
Definition bv_pop (b : bitvector) : res (option bit * bitvector) :=
  match vec_pop (bv_bits b) with
  | None => Ok (None, b)
  | Some (lc, bits') =>
      match bv_vals b with
      | None => Ok (Some (mkBit lc None), mkBV bits' None (bv_allocs b))
      | Some vs =>
          let? (v, vs') := unwrap (vec_pop vs) in
          Ok (Some (mkBit lc (Some v)), mkBV bits' (Some vs') (bv_allocs b))
      end
  end.

(** bit.rs:78-83 [Bitvector::push]: a value is pushed only if both sides have one. *)
Definition bv_push (x : bit) (b : bitvector) : bitvector :=
  mkBV (bv_bits b ++ [b_lc x])
       (match bv_vals b, b_val x with
        | Some vs, Some v => Some (vs ++ [v])%list
        | vs, _ => vs
        end) (bv_allocs b).

(** [Vec::insert]: panics when [i] exceeds the length. *)
Definition vec_insert {A} (i : nat) (a : A) (l : list A) : res (list A) :=
  if (i <=? List.length l)%nat then Ok (firstn i l ++ a :: skipn i l)%list else Panic.

(** bit.rs:85-90 [Bitvector::insert]. *)
Definition bv_insert (i : nat) (x : bit) (b : bitvector) : res bitvector :=
  let? vs := match bv_vals b, b_val x with
             | Some vs, Some v => let? vs' := vec_insert i v vs in Ok (Some vs')
             | vs, _ => Ok vs
             end in
  let? bits := vec_insert i (b_lc x) (bv_bits b) in
  Ok (mkBV bits vs (bv_allocs b)).

(** bit.rs:92-98 [Bitvector::append]. *)
Definition bv_append (b other : bitvector) : bitvector :=
  mkBV (bv_bits b ++ bv_bits other)
       (match bv_vals b, bv_vals other with
        | Some vs, Some ovs => Some (vs ++ ovs)%list
        | vs, _ => vs
        end) (bv_allocs b).

(** bit.rs:100-110 [Bitvector::into_bits]: [vs[i]] panics when values are missing. *)
Definition bv_into_bits (b : bitvector) : res (list bit) :=
  match bv_vals b with
  | None => Ok (map (fun lc => mkBit lc None) (bv_bits b))
  | Some vs =>
      rmapM (fun p => let? v := idx vs (fst p) in Ok (mkBit (snd p) (Some v)))
            (combine (seq 0 (List.length (bv_bits b))) (bv_bits b))
  end.

(** bit.rs:112-130 [Bitvector::from_bits]. *)
Definition bv_from_bits (bs : list bit) : bitvector :=
  mkBV (map b_lc bs)
       (fold_left (fun vs b => match vs, b_val b with
                               | Some vs, Some v => Some (vs ++ [v])%list
                               | _, _ => None
                               end) bs (Some []))
       bs.

(** bit.rs:136-164 [Bit::alloc]. *)
Definition bit_alloc (value : option bool) : prog bit :=
  let! (x, _) := alloc (Nm "boolean") (let? b := grab value in Ok (f_of_bool b)) in
  let! _ := enforce (Nm "boolean constraint")
     (lc_sub (lc_var ONE) (lc_var x)) (lc_var x) lc_zero in
  Ret (mkBit (lc_var x) value).

(** bit.rs:166-182 [Bit::constrain_value]. *)
Definition bit_constrain_value (b : bit) (value : bool) : prog unit :=
  enforce (Nm (if value then "is true" else "is false")) lc_zero lc_zero
    (if value then lc_sub (b_lc b) (lc_var ONE) else b_lc b).

(** bit.rs:188-190 [Bit::from_sapling]. *)
Definition bit_from_sapling (b : Boolean) : bit := mkBit (bool_lc b fone) (bool_val b).

(** bit.rs:192-197 [Bit::not]. *)
Definition bit_not (b : bit) : bit :=
  mkBit (lc_sub (lc_var ONE) (b_lc b)) (option_map negb (b_val b)).

(** bit.rs:199-213 [new_false], [new_true], [new_value]. *)
Definition bit_false : bit := mkBit lc_zero (Some false).
(** bit.rs:204-206 [new_true]. *)
Definition bit_true : bit := mkBit (lc_var ONE) (Some true).
(** bit.rs:208-214 [new_value]. *)
Definition bit_new_value (v : bool) : bit := if v then bit_true else bit_false.

(** ** src/util/num.rs *)

(** num.rs:10-13 [Num]. *)
Record num := mkNum { n_lc : LC; n_val : option Z }.

(** num.rs:19-40 [Num::alloc]. *)
Definition num_alloc (w : res Z) : prog num :=
  let! (x, v) := alloc (Nm "num") w in Ret (mkNum (lc_var x) v).

(** num.rs:185-189 [From<AllocatedNum>]. *)
Definition num_from (a : allocated_num) : num := mkNum (lc_var (an_var a)) (an_val a).

(** Witness closure of num.rs:54-61: the bit [i] of the value as a scalar. *)
Definition bit_scalar (v : option Z) (i : nat) : res Z :=
  let? x := grab v in
  let? ob := get_bit x i in
  let? b := grab ob in
  Ok (f_of_bool b).

(** num.rs:79-83: lc - 2*bits[0] - 4*bits[1] - ... ; [sgn] is -1 for line 83, 1 for line 93. *)
Fixpoint weighted_vars (sgn f : Z) (vs : list var) : LC :=
  match vs with
  | [] => lc_zero
  | v :: vs => let f := fdouble f in (sgn * f, v) :: weighted_vars sgn f vs
  end.

(** num.rs:42-100 [Num::fits_in_bits]: bits 1.. are allocated, bit 0 is what remains. *)
Definition fits_in_bits (n : num) (n_bits : nat) : prog unit :=
  let! bits := mapM (fun i =>
     let! (x, _) := alloc (Nmi "bit " i "") (bit_scalar (n_val n) i) in Ret x)
     (seq 1 (n_bits - 1)) in
  let! _ := iterM (fun p =>
     enforce (Nmi "" (fst p) " is bit") (lc_var (snd p))
       (lc_sub (lc_var ONE) (lc_var (snd p))) lc_zero)
     (combine (seq 0 (List.length bits)) bits) in
  enforce (Nm "last bit")
    (lc_add (n_lc n) (weighted_vars (-1) fone bits))
    (lc_add (lc_sub (lc_var ONE) (n_lc n)) (weighted_vars 1 fone bits))
    lc_zero.

(** num.rs:111-117 and 149-155: sum of 2^i * bit_i. *)
Fixpoint weighted_bits (f : Z) (bs : list bit) : LC :=
  match bs with
  | [] => lc_zero
  | b :: bs => lc_add (lc_scale f (b_lc b)) (weighted_bits (fdouble f) bs)
  end.

(** num.rs:104-121 [Num::is_equal]: uses [other.allocations]. *)
Definition num_is_equal (n : num) (other : bitvector) : prog unit :=
  enforce (Nm "sum") (lc_sub (n_lc n) (weighted_bits fone (bv_allocs other)))
    (lc_var ONE) lc_zero.

(** num.rs:126-168 [Num::decompose]. *)
Definition num_decompose (n : num) (n_bits : nat) : prog bitvector :=
  let! values := lift (match n_val n with
     | None => Ok None
     | Some v =>
         let? bs := rmapM (fun i => let? ob := get_bit v i in unwrap ob) (seq 0 n_bits) in
         Ok (Some bs)
     end) in
  let! allocations := mapM (fun i =>
     ns (Nmi "bit" i "") (bit_alloc (match values with
                                     | None => None
                                     | Some vs => nth_error vs i end)))
     (seq 0 n_bits) in
  let! _ := enforce (Nm "sum") (lc_sub (n_lc n) (weighted_bits fone allocations))
     (lc_var ONE) lc_zero in
  Ret (mkBV (map b_lc allocations) values allocations).

(** num.rs:170-182 [Num::as_sapling_allocated_num]. *)
Definition as_sapling_allocated_num (n : num) : prog allocated_num :=
  let! a := ns (Nm "alloc") (an_alloc (grab (n_val n))) in
  let! _ := enforce (Nm "eq") lc_zero lc_zero (lc_sub (lc_var (an_var a)) (n_lc n)) in
  Ret a.

End Util.

(** ** src/util/lazy.rs *)

(** lazy.rs:11-15 [LazyCellInner]; the closure is represented by the outcome of calling it
    ([None]: it panics). *)
Inductive lazy_inner (T : Type) := Unforced (f : option T) | Forced (t : T) | Empty.
Arguments Unforced {T} _.
Arguments Forced {T} _.
Arguments Empty {T}.

(** [Rc<RefCell<..>>]: content, number of live shared borrows, and how often the closure ran. *)
Record lazy_cell (T : Type) := mkLazy { lz_inner : lazy_inner T; lz_refs : nat; lz_calls : nat }.
Arguments mkLazy {T} _ _ _.
Arguments lz_inner {T} _.
Arguments lz_refs {T} _.
Arguments lz_calls {T} _.

(** lazy.rs:18-22 [new]. *)
Definition lazy_new {T} (f : option T) : lazy_cell T := mkLazy (Unforced f) 0 0.
(** lazy.rs:43-49 [From<T>]. *)
Definition lazy_from {T} (t : T) : lazy_cell T := mkLazy (Forced t) 0 0.

(** lazy.rs:23-32 [force]: [borrow_mut] panics while a shared borrow is alive; the cell is left
    [Empty] when the closure panics. *)
Definition lazy_force {T} (c : lazy_cell T) : res unit * lazy_cell T :=
  if (0 <? lz_refs c)%nat then (Panic, c)
  else match lz_inner c with
       | Forced t => (Ok tt, c)
       | Unforced (Some t) => (Ok tt, mkLazy (Forced t) (lz_refs c) (S (lz_calls c)))
       | Unforced None => (Panic, mkLazy Empty (lz_refs c) (S (lz_calls c)))
       | Empty => (Panic, c)
       end.

(** lazy.rs:33-40 [borrow]: on success one more shared borrow is alive. *)
Definition lazy_borrow {T} (c : lazy_cell T) : res T * lazy_cell T :=
  match lazy_force c with
  | (Ok _, c') =>
      match lz_inner c' with
      | Forced t => (Ok t, mkLazy (lz_inner c') (S (lz_refs c')) (lz_calls c'))
      | _ => (Panic, c')
      end
  | (Err e, c') => (Err e, c')
  | (Panic, c') => (Panic, c')
  end.

(** Dropping a [Ref]. *)
Definition lazy_release {T} (c : lazy_cell T) : lazy_cell T :=
  mkLazy (lz_inner c) (pred (lz_refs c)) (lz_calls c).

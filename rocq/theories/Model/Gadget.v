(** Model of src/util/gadget.rs for its only implementation, BigNat (src/mp/bignat.rs:1281-1361),
    and of BigNat::min, which uses it. *)
From Coq Require Import ZArith Bool String List.
From Verif.Model Require Import Base CS Bellpepper Util Poly Bignat.
Import ListNotations.
Local Open Scope string_scope.
Local Open Scope Z_scope.
Local Open Scope list_scope.

Section Gadget.
Context {E : Env}.

(** bignat.rs:1288-1300 [Gadget::alloc]. *)
Definition gadget_alloc (v : option Z) (p : params) : prog bignat :=
  alloc_from_nat (grab v) (limb_width p) (n_limbs p).

(** gadget.rs:24-35 [inputize]. *)
Definition gadget_inputize (b : bignat) : prog unit :=
  iterM (fun p =>
    ns (Nmi "" (fst p) "") (
      let! (x, _) := alloc_input (Nm "in") (let? vs := grab (limb_values b) in idx vs (fst p)) in
      enforce (Nm "eq") lc_zero lc_zero (lc_sub (lc_var x) (snd p))))
    (combine (seq 0 (List.length (limbs b))) (limbs b)).

(** gadget.rs:37-59 [as_nums]. *)
Definition as_nums (b : bignat) : prog (list allocated_num) :=
  mapM (fun p =>
    let! n := ns (Nmi "wire " (fst p) "")
       (an_alloc (let? vs := grab (limb_values b) in idx vs (fst p))) in
    let! _ := enforce (Nmi "wire eq " (fst p) "") lc_zero lc_zero
       (lc_sub (snd p) (lc_var (an_var n))) in
    Ret n) (combine (seq 0 (List.length (limbs b))) (limbs b)).

(** gadget.rs:88-100 and bignat.rs:1346-1358: s * (i1 - i0) = out - i0, wire by wire. *)
Definition mux_wires (s : bit) (w0 w1 wo : list LC) : prog unit :=
  iterM (fun p =>
    let '(i, ((l0, l1), lo)) := p in
    enforce (Nmi "" i "") (b_lc s) (lc_sub l1 l0) (lc_sub lo l0))
    (combine (seq 0 (List.length w0)) (combine (combine w0 w1) wo)).

(** gadget.rs:74-76 and bignat.rs:1331-1333: value of the selected operand. *)
Definition mux_value (s : bit) (i0 i1 : bignat) : option Z :=
  match b_val s with Some b => if b then value i1 else value i0 | None => None end.

(** gadget.rs:62-102, the default [mux] (overridden by BigNat). *)
Definition mux_default (s : bit) (i0 i1 : bignat) : prog bignat :=
  if negb (List.length (limbs i0) =? List.length (limbs i1))%nat then Fail Unsatisfiable else
  let! out := ns (Nm "out") (gadget_alloc (mux_value s i0 i1) (bparams i0)) in
  if negb (List.length (limbs out) =? List.length (limbs i0))%nat then Fail Unsatisfiable else
  let! _ := mux_wires s (limbs i0) (limbs i1) (limbs out) in
  Ret out.

(** bignat.rs:1316-1360 [BigNat::mux]. *)
Definition mux (s : bit) (i0 i1 : bignat) : prog bignat :=
  let n := Nat.max (n_limbs (bparams i0)) (n_limbs (bparams i1)) in
  let! i0 := lift (with_n_limbs i0 n) in
  let! i1 := lift (with_n_limbs i1 n) in
  if negb (List.length (limbs i0) =? List.length (limbs i1))%nat
     || negb (limb_width (bparams i0) =? limb_width (bparams i1))%nat
  then Fail Unsatisfiable else
  let! out := ns (Nm "out") (gadget_alloc (mux_value s i0 i1)
     (mkParams (Nat.min (min_bits (bparams i0)) (min_bits (bparams i1)))
               (Z.max (max_word (bparams i0)) (max_word (bparams i1)))
               (limb_width (bparams i0)) (n_limbs (bparams i0)))) in
  let! _ := mux_wires s (limbs i0) (limbs i1) (limbs out) in
  Ret out.

(** gadget.rs:104-124 [mux_tree]. *)
Fixpoint mux_tree (bits : list bit) (inputs : list bignat) : prog bignat :=
  match bits with
  | bit :: bits =>
      if negb (List.length inputs mod 2 =? 0)%nat then Fail Unsatisfiable else
      let h := (List.length inputs / 2)%nat in
      let! l := ns (Nm "left") (mux_tree bits (firstn h inputs)) in
      let! r := ns (Nm "right") (mux_tree bits (skipn h inputs)) in
      ns (Nm "join") (mux bit l r)
  | [] =>
      match inputs with [b] => Ret b | _ => Fail Unsatisfiable end
  end.

(** gadget.rs:127-137 [switch]. *)
Definition switch (s : bit) (i0 i1 : bignat) : prog (bignat * bignat) :=
  let! o0 := ns (Nm "out 0") (mux s i0 i1) in
  let! o1 := ns (Nm "out 1") (mux (bit_not s) i0 i1) in
  Ret (o0, o1).

(** gadget.rs:139-153 [assert_equal]. *)
Definition assert_equal (i0 i1 : bignat) : prog unit :=
  if negb (List.length (limbs i0) =? List.length (limbs i1))%nat then Fail Unsatisfiable else
  iterM (fun p => enforce (Nmi "" (fst p) "") lc_zero lc_zero (lc_sub (snd (snd p)) (fst (snd p))))
    (combine (seq 0 (List.length (limbs i0))) (combine (limbs i0) (limbs i1))).

(** bignat.rs:968-982 [min]. *)
Definition bn_min (a b : bignat) : prog bignat :=
  let! select := ns (Nm "select") (bit_alloc
     (match value a, value b with Some s, Some o => Some (o <? s) | _, _ => None end)) in
  let! (lesser, greater) := ns (Nm "switch") (switch select a b) in
  let! _ := ns (Nm "difference") (sub greater b) in
  Ret lesser.

End Gadget.

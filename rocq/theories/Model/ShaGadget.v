(** The SHA-256 gadget of bellpepper 0.4 and what it is made of: [Boolean::xor], [sha256_ch],
    [sha256_maj], [UInt32], [MultiEq].  External code (trusted transcription from knowledge of the
    crate), called at /repo/src/btc_validation/prev_block_hash.rs:29-30 and header_step.rs:222-223;
    everywhere else in the model it is replaced by the macro constraint of Model/Bellpepper.v. *)
From Coq Require Import ZArith Bool String List.
From Verif.Model Require Import Base Sha256 CS Bellpepper.
Import ListNotations.
Local Open Scope string_scope.
Local Open Scope Z_scope.
Local Open Scope list_scope.

Section ShaGadget.
Context {E : Env}.

(** bellpepper-core boolean.rs [AllocatedBit::xor]: 2a * b = a + b - c. *)
Definition ab_xor (a b : allocated_bit) : prog allocated_bit :=
  let! (x, v) := alloc (Nm "xor result")
     (let? va := grab (ab_val a) in let? vb := grab (ab_val b) in Ok (f_of_bool (xorb va vb))) in
  let! _ := enforce (Nm "xor constraint") (lc_add (lc_var (ab_var a)) (lc_var (ab_var a))) (lc_var (ab_var b))
     (lc_sub (lc_add (lc_var (ab_var a)) (lc_var (ab_var b))) (lc_var x)) in
  Ret (mkAB x (option_map bit_of_f v)).

(** boolean.rs [Boolean::xor]. *)
Definition bool_xor (a b : Boolean) : prog Boolean :=
  match a, b with
  | BConst false, x | x, BConst false => Ret x
  | BConst true, x | x, BConst true => Ret (bool_not x)
  | BIs a, BNot b | BNot b, BIs a => let! r := ab_xor a b in Ret (BNot r)
  | BIs a, BIs b | BNot a, BNot b => let! r := ab_xor a b in Ret (BIs r)
  end.

(** boolean.rs [Boolean::is_constant]. *)
Definition is_constant (b : Boolean) : bool := match b with BConst _ => true | _ => false end.

(** Recorded value of a function of three bits: present when all three are. *)
Definition val3 (f : bool -> bool -> bool -> bool) (a b c : Boolean) : option bool :=
  match bool_val a, bool_val b, bool_val c with
  | Some x, Some y, Some z => Some (f x y z)
  | _, _, _ => None
  end.
(** boolean.rs [Boolean::sha256_ch]: the value. *)
Definition ch_bit (a b c : bool) : bool := xorb (a && b) (negb a && c).
(** boolean.rs [Boolean::sha256_maj]: the value. *)
Definition maj_bit (a b c : bool) : bool := xorb (xorb (a && b) (a && c)) (b && c).

(** boolean.rs [Boolean::sha256_ch]: (b - c) * a = ch - c. *)
Definition ch_general (a b c : Boolean) : prog Boolean :=
  let v := val3 ch_bit a b c in
  let! (x, _) := alloc (Nm "ch") (let? b := grab v in Ok (f_of_bool b)) in
  let! _ := enforce (Nm "ch computation") (lc_sub (bool_lc b 1) (bool_lc c 1)) (bool_lc a 1)
     (lc_sub (lc_var x) (bool_lc c 1)) in
  Ret (BIs (mkAB x v)).
(** boolean.rs [Boolean::sha256_ch]: the cases with constants first. *)
Definition bool_ch (a b c : Boolean) : prog Boolean :=
  match a, b, c with
  | BConst x, BConst y, BConst z => Ret (BConst (ch_bit x y z))
  | BConst false, _, c => Ret c
  | a, BConst false, c => bool_and (bool_not a) c
  | a, b, BConst false => bool_and a b
  | a, b, BConst true => let! r := bool_and a (bool_not b) in Ret (bool_not r)
  | a, BConst true, c => let! r := bool_and (bool_not a) (bool_not c) in Ret (bool_not r)
  | a, b, c => ch_general a b c
  end.

(** boolean.rs [Boolean::sha256_maj]: (2bc - b - c) * a = bc - maj. *)
Definition maj_general (a b c : Boolean) : prog Boolean :=
  let v := val3 maj_bit a b c in
  let! (x, _) := alloc (Nm "maj") (let? b := grab v in Ok (f_of_bool b)) in
  let! bc := ns (Nm "b and c") (bool_and b c) in
  let! _ := enforce (Nm "maj computation")
     (lc_sub (lc_sub (lc_add (bool_lc bc 1) (bool_lc bc 1)) (bool_lc b 1)) (bool_lc c 1)) (bool_lc a 1)
     (lc_sub (bool_lc bc 1) (lc_var x)) in
  Ret (BIs (mkAB x v)).
(** boolean.rs [Boolean::sha256_maj]: the cases with constants first. *)
Definition bool_maj (a b c : Boolean) : prog Boolean :=
  match a, b, c with
  | BConst x, BConst y, BConst z => Ret (BConst (maj_bit x y z))
  | BConst false, b, c => bool_and b c
  | a, BConst false, c => bool_and a c
  | a, b, BConst false => bool_and a b
  | a, b, BConst true => let! r := bool_and (bool_not a) (bool_not b) in Ret (bool_not r)
  | a, BConst true, c => let! r := bool_and (bool_not a) (bool_not c) in Ret (bool_not r)
  | BConst true, b, c => let! r := bool_and (bool_not b) (bool_not c) in Ret (bool_not r)
  | a, b, c => maj_general a b c
  end.

(** bellpepper uint32.rs [UInt32]: 32 bits, low-order first, and the value. *)
Record u32 := mkU32 { u_bits : list Boolean; u_val : option Z }.

(** [UInt32::constant], [from_bits_be], [into_bits_be]. *)
Definition u_constant (v : Z) : u32 := mkU32 (map (fun i => BConst (Z.testbit v (Z.of_nat i))) (seq 0 32)) (Some v).
(** uint32.rs [UInt32::from_bits_be]. *)
Definition u_from_be (bits : list Boolean) : prog u32 :=
  if negb (Nat.eqb (List.length bits) 32) then Crash else
  Ret (mkU32 (rev bits) (option_map bits_to_Z (all_some (map bool_val bits)))).
(** uint32.rs [UInt32::into_bits_be]. *)
Definition u_into_be (u : u32) : list Boolean := rev (u_bits u).

(** [UInt32::rotr], [shr]. *)
Definition u_rotr (by_ : nat) (u : u32) : u32 :=
  mkU32 (firstn 32 (skipn by_ (u_bits u) ++ u_bits u)) (option_map (rotr (Z.of_nat by_)) (u_val u)).
(** uint32.rs [UInt32::shr]. *)
Definition u_shr (by_ : nat) (u : u32) : u32 :=
  mkU32 (firstn 32 (skipn by_ (u_bits u) ++ repeat (BConst false) by_)) (option_map (shr32 (Z.of_nat by_)) (u_val u)).

(** [UInt32::xor], [sha256_ch], [sha256_maj]: bit by bit. *)
Definition zip_bits (nm : string) (f : Boolean -> Boolean -> prog Boolean) (a b : list Boolean) : prog (list Boolean) :=
  mapM (fun p => ns (Nmi nm (fst p) "") (f (fst (snd p)) (snd (snd p)))) (combine (seq 0 (List.length a)) (combine a b)).
(** uint32.rs [UInt32::triop]: the loop over the bits. *)
Definition zip3_bits (nm : string) (f : Boolean -> Boolean -> Boolean -> prog Boolean) (a b c : list Boolean) : prog (list Boolean) :=
  mapM (fun p => ns (Nmi nm (fst p) "") (f (fst (snd p)) (fst (snd (snd p))) (snd (snd (snd p)))))
    (combine (seq 0 (List.length a)) (combine a (combine b c))).
(** uint32.rs [UInt32::xor]. *)
Definition u_xor (a b : u32) : prog u32 :=
  let! bits := zip_bits "xor of bit_gadget " bool_xor (u_bits a) (u_bits b) in
  Ret (mkU32 bits (match u_val a, u_val b with Some x, Some y => Some (Z.lxor x y) | _, _ => None end)).
(** uint32.rs [UInt32::triop]. *)
Definition u_triop (nm : string) (f : Boolean -> Boolean -> Boolean -> prog Boolean) (g : Z -> Z -> Z -> Z) (a b c : u32) : prog u32 :=
  let! bits := zip3_bits nm f (u_bits a) (u_bits b) (u_bits c) in
  Ret (mkU32 bits (match u_val a, u_val b, u_val c with Some x, Some y, Some z => Some (g x y z) | _, _, _ => None end)).
(** uint32.rs [UInt32::sha256_ch]. *)
Definition u_ch := u_triop "ch " bool_ch Ch.
(** uint32.rs [UInt32::sha256_maj]. *)
Definition u_maj := u_triop "maj " bool_maj Maj.

(** bellpepper multieq.rs [MultiEq]: equalities of short numbers packed into one constraint. *)
Record meq := mkMeq { mq_ops : nat; mq_bits : nat; mq_lhs : LC; mq_rhs : LC }.
(** multieq.rs [MultiEq::new]. *)
Definition mq_new : meq := mkMeq 0 0 lc_zero lc_zero.
(** multieq.rs [MultiEq::accumulate]. *)
Definition mq_accumulate (q : meq) : prog meq :=
  let! _ := enforce (Nmi "multieq " (mq_ops q) "") (mq_lhs q) (lc_var ONE) (mq_rhs q) in
  Ret (mkMeq (S (mq_ops q)) 0 lc_zero lc_zero).
(** multieq.rs [MultiEq::enforce_equal]. *)
Definition mq_enforce_equal (q : meq) (num_bits : nat) (lhs rhs : LC) : prog meq :=
  let! q := if (CAPACITY <=? mq_bits q + num_bits)%nat then mq_accumulate q else Ret q in
  if (CAPACITY <=? mq_bits q + num_bits)%nat then Crash else
  let coeff := 2 ^ Z.of_nat (mq_bits q) in
  Ret (mkMeq (mq_ops q) (mq_bits q + num_bits)
         (lc_add (mq_lhs q) (lc_scale coeff lhs)) (lc_add (mq_rhs q) (lc_scale coeff rhs))).
(** [Drop]: the last packed equalities (on an error or a panic the constraints no longer matter). *)
Definition mq_drop (q : meq) : prog unit :=
  if (0 <? mq_bits q)%nat then let! _ := mq_accumulate q in Ret tt else Ret tt.

(** The bits of a word, or of the result, weighted by powers of two. *)
Definition weighted (bits : list Boolean) : LC :=
  flat_map (fun p => bool_lc (snd p) (2 ^ Z.of_nat (fst p))) (combine (seq 0 (List.length bits)) bits).

(** [UInt32::addmany]: sum of two to ten words; the carries are allocated and dropped. *)
Definition u_addmany (q : meq) (ops : list u32) : prog (meq * u32) :=
  if (NUM_BITS <? 64)%nat then Crash else
  if (List.length ops <? 2)%nat then Crash else
  if (10 <? List.length ops)%nat then Crash else
  let max_value := Z.of_nat (List.length ops) * 4294967295 in
  let result_value := option_map (fold_right Z.add 0) (all_some (map u_val ops)) in
  let modular_value := option_map w32 result_value in
  let lc := flat_map (fun u => weighted (u_bits u)) ops in
  match forallb (fun u => forallb is_constant (u_bits u)) ops, modular_value with
  | true, Some v => Ret (q, u_constant v)
  | _, _ =>
      let n := Z.to_nat (Z.log2 max_value + 1) in
      let! bits := mapM (fun i =>
         let! b := ns (Nmi "result bit_gadget " i "") (ab_alloc (option_map (fun v => Z.testbit v (Z.of_nat i)) result_value)) in
         Ret (BIs b)) (seq 0 n) in
      let! q := mq_enforce_equal q n lc (weighted bits) in
      Ret (q, mkU32 (firstn 32 bits) modular_value)
  end.

(** bellpepper sha256.rs [sha256_compression_function]: the message schedule. *)
Definition w_extend (st : meq * list u32) (i : nat) : prog (meq * list u32) :=
  let (q, w) := st in
  ns (Nmi "w extension " i "") (
    let! w15 := lift (idx w (i - 15)) in
    let! s0 := ns (Nm "first xor for s0") (u_xor (u_rotr 7 w15) (u_rotr 18 w15)) in
    let! s0 := ns (Nm "second xor for s0") (u_xor s0 (u_shr 3 w15)) in
    let! w2 := lift (idx w (i - 2)) in
    let! s1 := ns (Nm "first xor for s1") (u_xor (u_rotr 17 w2) (u_rotr 19 w2)) in
    let! s1 := ns (Nm "second xor for s1") (u_xor s1 (u_shr 10 w2)) in
    let! w16 := lift (idx w (i - 16)) in
    let! w7 := lift (idx w (i - 7)) in
    let! (q, t) := ns (Nm "computation of w[i]") (u_addmany q [w16; s0; w7; s1]) in
    Ret (q, w ++ [t])).

(** A sum that is computed when it is needed ([enum Maybe]). *)
Inductive maybe := Deferred (us : list u32) | Concrete (u : u32).
(** sha256.rs [Maybe::compute]. *)
Definition mb_compute (q : meq) (m : maybe) (others : list u32) : prog (meq * u32) :=
  match m with
  | Concrete u => Ret (q, u)
  | Deferred us => u_addmany q (us ++ others)
  end.

(** One round on the variables a, ..., h, of which a and e may be deferred. *)
Record rvars := mkR { ra : maybe; rb : u32; rc : u32; rd : u32; re : maybe; rf : u32; rg : u32; rh : u32 }.
(** sha256.rs [sha256_compression_function]: one iteration of the loop over 64 rounds. *)
Definition sha_round (w : list u32) (st : meq * rvars) (i : nat) : prog (meq * rvars) :=
  let (q, v) := st in
  ns (Nmi "compression round " i "") (
    let! (q, new_e) := ns (Nm "deferred e computation") (mb_compute q (re v) []) in
    let! s1 := ns (Nm "first xor for s1") (u_xor (u_rotr 6 new_e) (u_rotr 11 new_e)) in
    let! s1 := ns (Nm "second xor for s1") (u_xor s1 (u_rotr 25 new_e)) in
    let! ch := ns (Nm "ch") (u_ch new_e (rf v) (rg v)) in
    let! wi := lift (idx w i) in
    let temp1 := [rh v; s1; ch; u_constant (nth i K256 0); wi] in
    let! (q, new_a) := ns (Nm "deferred a computation") (mb_compute q (ra v) []) in
    let! s0 := ns (Nm "first xor for s0") (u_xor (u_rotr 2 new_a) (u_rotr 13 new_a)) in
    let! s0 := ns (Nm "second xor for s0") (u_xor s0 (u_rotr 22 new_a)) in
    let! maj := ns (Nm "maj") (u_maj new_a (rb v) (rc v)) in
    let temp2 := [s0; maj] in
    Ret (q, mkR (Deferred (temp1 ++ temp2)) new_a (rb v) (rc v) (Deferred (temp1 ++ [rd v])) new_e (rf v) (rg v))).

(** sha256.rs [sha256_compression_function]. *)
Definition sha_compress (input : list Boolean) (cur : list u32) : prog (list u32) :=
  if negb (Nat.eqb (List.length input) 512) then Crash else
  match cur with
  | [h0; h1; h2; h3; h4; h5; h6; h7] =>
      let! w := mapM u_from_be (chunks 512 32 input) in
      let! (q, w) := foldM w_extend (seq 16 48) (mq_new, w) in
      let! (q, v) := foldM (sha_round w) (seq 0 64) (q, mkR (Concrete h0) h1 h2 h3 (Concrete h4) h5 h6 h7) in
      let! (q, o0) := ns (Nm "deferred h0 computation") (mb_compute q (ra v) [h0]) in
      let! (q, o1) := ns (Nm "new h1") (u_addmany q [h1; rb v]) in
      let! (q, o2) := ns (Nm "new h2") (u_addmany q [h2; rc v]) in
      let! (q, o3) := ns (Nm "new h3") (u_addmany q [h3; rd v]) in
      let! (q, o4) := ns (Nm "deferred h4 computation") (mb_compute q (re v) [h4]) in
      let! (q, o5) := ns (Nm "new h5") (u_addmany q [h5; rf v]) in
      let! (q, o6) := ns (Nm "new h6") (u_addmany q [h6; rg v]) in
      let! (q, o7) := ns (Nm "new h7") (u_addmany q [h7; rh v]) in
      let! _ := mq_drop q in
      Ret [o0; o1; o2; o3; o4; o5; o6; o7]
  | _ => Crash
  end.

(** sha256.rs [sha256]: padding, then block after block. *)
Definition sha_pad (input : list Boolean) : list Boolean :=
  let l := List.length input in
  let k := ((512 - (l + 1 + 64) mod 512) mod 512)%nat in
  input ++ [BConst true] ++ repeat (BConst false) k ++
  map (fun i => BConst (Z.testbit (Z.of_nat l mod 2 ^ 64) (Z.of_nat i))) (rev (seq 0 64)).
(** sha256.rs [sha256]: the gadget. *)
Definition sha256_r1cs (input : list Boolean) : prog (list Boolean) :=
  if negb (Nat.eqb (Nat.modulo (List.length input) 8) 0) then Crash else
  let padded := sha_pad input in
  let blocks := chunks (List.length padded) 512 padded in
  let! cur := foldM (fun cur p => ns (Nmi "block " (fst p) "") (sha_compress (snd p) cur))
     (combine (seq 0 (List.length blocks)) blocks) (map u_constant H0) in
  Ret (flat_map u_into_be cur).

End ShaGadget.

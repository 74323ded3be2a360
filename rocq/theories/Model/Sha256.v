(** SHA-256 (FIPS 180-4) on bit strings, most significant bit first.
    Specification of the external gadget bellpepper [sha256::sha256]. *)
From Coq Require Import ZArith List.
Import ListNotations.
Local Open Scope Z_scope.

(** FIPS 180-4, 2.2.1: words modulo 2^32. *)
Definition w32 (x : Z) : Z := x mod 4294967296.
(** FIPS 180-4, 3.2: addition modulo 2^32. *)
Definition add32 (a b : Z) : Z := w32 (a + b).
(** FIPS 180-4, 3.2: rotation right. *)
Definition rotr (n x : Z) : Z := Z.lor (Z.shiftr x n) (w32 (Z.shiftl x (32 - n))).
(** FIPS 180-4, 3.2: shift right. *)
Definition shr32 (n x : Z) : Z := Z.shiftr x n.
(** FIPS 180-4, 2.2.2: complement of a word. *)
Definition not32 (x : Z) : Z := 4294967295 - x.

(** FIPS 180-4, (4.2). *)
Definition Ch x y z := Z.lxor (Z.land x y) (Z.land (not32 x) z).
(** FIPS 180-4, (4.3). *)
Definition Maj x y z := Z.lxor (Z.lxor (Z.land x y) (Z.land x z)) (Z.land y z).
(** FIPS 180-4, (4.4). *)
Definition Sig0 x := Z.lxor (Z.lxor (rotr 2 x) (rotr 13 x)) (rotr 22 x).
(** FIPS 180-4, (4.5). *)
Definition Sig1 x := Z.lxor (Z.lxor (rotr 6 x) (rotr 11 x)) (rotr 25 x).
(** FIPS 180-4, (4.6). *)
Definition sig0 x := Z.lxor (Z.lxor (rotr 7 x) (rotr 18 x)) (shr32 3 x).
(** FIPS 180-4, (4.7). *)
Definition sig1 x := Z.lxor (Z.lxor (rotr 17 x) (rotr 19 x)) (shr32 10 x).

(** FIPS 180-4, 4.2.2: the constants of the rounds. *)
Definition K256 : list Z :=
[0x428a2f98;0x71374491;0xb5c0fbcf;0xe9b5dba5;0x3956c25b;0x59f111f1;0x923f82a4;0xab1c5ed5;
 0xd807aa98;0x12835b01;0x243185be;0x550c7dc3;0x72be5d74;0x80deb1fe;0x9bdc06a7;0xc19bf174;
 0xe49b69c1;0xefbe4786;0x0fc19dc6;0x240ca1cc;0x2de92c6f;0x4a7484aa;0x5cb0a9dc;0x76f988da;
 0x983e5152;0xa831c66d;0xb00327c8;0xbf597fc7;0xc6e00bf3;0xd5a79147;0x06ca6351;0x14292967;
 0x27b70a85;0x2e1b2138;0x4d2c6dfc;0x53380d13;0x650a7354;0x766a0abb;0x81c2c92e;0x92722c85;
 0xa2bfe8a1;0xa81a664b;0xc24b8b70;0xc76c51a3;0xd192e819;0xd6990624;0xf40e3585;0x106aa070;
 0x19a4c116;0x1e376c08;0x2748774c;0x34b0bcb5;0x391c0cb3;0x4ed8aa4a;0x5b9cca4f;0x682e6ff3;
 0x748f82ee;0x78a5636f;0x84c87814;0x8cc70208;0x90befffa;0xa4506ceb;0xbef9a3f7;0xc67178f2].

(** FIPS 180-4, 5.3.3: the initial hash value. *)
Definition H0 : list Z :=
[0x6a09e667;0xbb67ae85;0x3c6ef372;0xa54ff53a;0x510e527f;0x9b05688c;0x1f83d9ab;0x5be0cd19].

(** Message schedule, built backwards: the head of the list is the newest word. *)
Fixpoint schedule (n : nat) (ws : list Z) : list Z :=
  match n with
  | O => ws
  | S n' =>
      let w := add32 (add32 (sig1 (nth 1 ws 0)) (nth 6 ws 0))
                     (add32 (sig0 (nth 14 ws 0)) (nth 15 ws 0)) in
      schedule n' (w :: ws)
  end.

(** FIPS 180-4, 6.2.2, step 3: one round; [kw] is the constant and the scheduled word. *)
Definition round (s : list Z) (kw : Z * Z) : list Z :=
  match s with
  | [a;b;c;d;e;f;g;h] =>
      let t1 := add32 (add32 (add32 h (Sig1 e)) (add32 (Ch e f g) (fst kw))) (snd kw) in
      let t2 := add32 (Sig0 a) (Maj a b c) in
      [add32 t1 t2; a; b; c; add32 d t1; e; f; g]
  | _ => s
  end.

(** FIPS 180-4, 6.2.2, steps 1 to 4: one block. *)
Definition compress (h : list Z) (block : list Z) : list Z :=
  let w := rev (schedule 48 (rev block)) in
  let r := fold_left round (combine K256 w) h in
  map (fun p => add32 (fst p) (snd p)) (combine h r).

(** Bits, most significant first. *)
Definition bits_to_Z (bs : list bool) : Z := fold_left (fun acc b => 2 * acc + Z.b2z b) bs 0.

(** The [n] low-order bits of a number, most significant first. *)
Fixpoint Z_to_bits (n : nat) (x : Z) : list bool :=
  match n with
  | O => []
  | S n' => Z.testbit x (Z.of_nat n') :: Z_to_bits n' x
  end.

(** FIPS 180-4, 5.1.1: padding. *)
Definition pad (m : list bool) : list bool :=
  let l := length m in
  let k := ((448 + 512 - (l + 1) mod 512) mod 512)%nat in
  m ++ [true] ++ repeat false k ++ Z_to_bits 64 (Z.of_nat l).

(** FIPS 180-4, 5.2.1: cutting a list into pieces of [n]. *)
Fixpoint chunks {A} (fuel n : nat) (l : list A) : list (list A) :=
  match fuel, l with
  | _, [] => []
  | O, _ => []
  | S fuel', _ => firstn n l :: chunks fuel' n (skipn n l)
  end.

(** FIPS 180-4, 6.2; the gadget is called at src/btc_validation/prev_block_hash.rs:29-30 and header_step.rs:222-223. *)
Definition sha256 (m : list bool) : list bool :=
  let p := pad m in
  let blocks := chunks (length p) 512 p in
  let h := fold_left (fun h b => compress h (map bits_to_Z (chunks 16 32 b))) blocks H0 in
  flat_map (Z_to_bits 32) h.

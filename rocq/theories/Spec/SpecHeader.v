(** Block headers, described on bytes, bits and integers. *)
From Coq Require Import ZArith List.
From Verif.Model Require Import Base Sha256.
From Verif.Spec Require Import Spec.
Import ListNotations.
Local Open Scope Z_scope.

(** The bits of a 64-bit word, high-order bit first; the same for a list of words. *)
Definition word_bits (x : Z) : list bool := map (fun i => Z.testbit x (Z.of_nat (63 - i))) (seq 0 64).
Definition words_bits (ws : list Z) : list bool := flat_map word_bits ws.

(** Bitcoin's hash of a bit string. *)
Definition sha256d (bs : list bool) : list bool := sha256 (sha256 bs).

(** The bytes of a 64-bit word, high-order byte first; a header is ten such words (80 bytes). *)
Definition word_bytes (x : Z) : list Z := map (fun i => x / 256 ^ Z.of_nat (7 - i) mod 256) (seq 0 8).
Definition header_bytes (ws : list Z) : list Z := flat_map word_bytes ws.

(** Little-endian integer of a byte string. *)
Definition le_int (bytes : list Z) : Z := value_of 256 bytes.

(** Little-endian integer of a digest: eight bits per byte, high-order bit first. *)
Definition bit_weight (i : nat) : Z := 2 ^ Z.of_nat (8 * (i / 8) + 7 - i mod 8).
Fixpoint digest_sum (i : nat) (bs : list bool) : Z :=
  match bs with
  | [] => 0
  | b :: bs => (if b then bit_weight i else 0) + digest_sum (S i) bs
  end.
Definition digest_int (bs : list bool) : Z := digest_sum 0 bs.

(** The fields of a header: previous hash (bytes 4 to 35), timestamp (68 to 71) and compact target
    (72 to 75), all little-endian. *)
Definition slice {A} (from len : nat) (l : list A) : list A := firstn len (skipn from l).
Definition prev_hash_field (h : list Z) : Z := le_int (slice 4 32 (header_bytes h)).
Definition time_field (h : list Z) : Z := le_int (slice 68 4 (header_bytes h)).
Definition nbits_field (h : list Z) : Z := le_int (slice 72 4 (header_bytes h)).

(** Bitcoin's decoding of the compact target: the high-order byte is the exponent. *)
Definition compact_target (nbits : Z) : Z :=
  let e := nbits / 2 ^ 24 in
  let m := nbits mod 2 ^ 23 in
  if e <? 3 then m / 256 ^ (3 - e) else m * 256 ^ (e - 3).

(** Bitcoin's largest target, ffff * 2^208. *)
Definition max_target : Z := 65535 * 2 ^ 208.

(** Ten words of 64 bits. *)
Definition header_ok (h : list Z) : Prop := length h = 10%nat /\ Forall (fun w => 0 <= w < 2 ^ 64) h.

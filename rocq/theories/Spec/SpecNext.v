(** Bitcoin's conditions on a header, relative to the state of the chain before it. *)
From Coq Require Import ZArith List.
From Verif.Spec Require Import Spec SpecHeader.
Import ListNotations.
Local Open Scope Z_scope.

(** A state holds the hash of the last block, the last eleven timestamps and, at index 12, the target.  The timestamp
    is above the median if it is above six of the eleven. *)
Definition valid_next (z h : list Z) : Prop :=
  header_ok h /\
  prev_hash_field h = nth 0 z 0 /\
  (6 <= length (filter (fun t => (t <? time_field h)%Z) (slice 1 11 z)))%nat /\
  compact_target (nbits_field h) = nth 12 z 0 /\
  digest_int (sha256d (words_bits h)) <= nth 12 z 0.

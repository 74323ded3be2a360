(** Concrete instances of the parameters: the fields used by /repo. *)
From Coq Require Import ZArith.
From Verif.Model Require Import Base.
Local Open Scope Z_scope.

(** src/util/scalar.rs:3-7 [Fr], little-endian 32-byte representation. *)
Definition fr_modulus : Z :=
  52435875175126190479447740508185965837690552500527637822603658699938581184513.
(** Scalar field of nova_snark's PallasEngine (examples/validate_header.rs:16 and 42). *)
Definition pallas_scalar_modulus : Z :=
  28948022309329048855892746252171976963363056481941647379679742748393362948097.

(** The field of src/util/scalar.rs:3-7, with exact carry widths. *)
Definition fr_env (checks : bool) : Env := mkEnv fr_modulus 32 checks carry_bits_exact.
(** The field of examples/validate_header.rs:16 and 42, with exact carry widths. *)
Definition pallas_env (checks : bool) : Env := mkEnv pallas_scalar_modulus 32 checks carry_bits_exact.
(** A small field for examples that compute. *)
Definition small_env (p : Z) : Env := mkEnv p 1 true carry_bits_exact.

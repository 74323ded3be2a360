(** Model of examples/validate_header.rs.  Nova (external crate) appears as an arbitrary [nova]: only that it
    synthesizes the step circuit where it does is fixed.  A line that shows a time or a count is represented by the
    text before it. *)
From Coq Require Import ZArith Bool String List.
From Verif.Model Require Import Base CS Bellpepper Util Poly Bignat Ints Median Difficulty HeaderStep.
Import ListNotations.
Local Open Scope string_scope.
Local Open Scope Z_scope.
Local Open Scope list_scope.

(** What a program printed, and how it ended. *)
Definition io (A : Type) : Type := list string * res A.
(** [println!] (validate_header.rs:48 and others). *)
Definition say (l : string) : io unit := ([l], Ok tt).
(** A computation that prints nothing. *)
Definition pure {A} (r : res A) : io A := ([], r).
(** Statements of [main] in sequence (validate_header.rs:38-185): nothing is printed after a failure. *)
Definition io_bind {A B} (m : io A) (f : A -> io B) : io B :=
  match m with
  | (o, Ok a) => let (o', r) := f a in (o ++ o', r)
  | (o, Err e) => (o, Err e)
  | (o, Panic) => (o, Panic)
  end.
Notation "'do' x := m 'in' k" := (io_bind m (fun x => k))
  (at level 200, x pattern, m at level 100, k at level 200, right associativity).
(** [assert!(res.is_ok())]; the panic of a call is a panic of the program. *)
Definition assert_ok {A} (r : res A) : io A := pure (unwrap_res r).
(** [let res = ...]: an error is kept, a panic is not. *)
Definition call {A} (r : res A) : io (res A) :=
  pure (match r with Panic => Panic | _ => Ok r end).

(** nova_snark 0.35 as the example uses it.  [..._inputs] is what Nova's circuit does before it calls the step
    circuit, ending with the state it passes; [..._finish] is everything after a synthesis that did not panic (the
    secondary circuit, commitments, folding). *)
Record nova := mkNova {
  PP : Type; RS : Type; PVK : Type; CP : Type;
  shape_inputs : prog (list allocated_num);
  shape_finish : res (list allocated_num) * st -> res PP;
  new_inputs : PP -> list Z -> prog (list allocated_num);
  new_finish : PP -> res (list allocated_num) * st -> res RS;
  step_inputs : PP -> RS -> prog (list allocated_num);
  step_finish : PP -> RS -> res (list allocated_num) * st -> res RS;
  rs_verify : PP -> RS -> nat -> list Z -> res unit;
  compress_setup : PP -> res PVK;
  compress_prove : PP -> PVK -> RS -> res CP;
  compress_verify : PVK -> CP -> nat -> list Z -> res unit
}.

Section Driver.
Context {E : Env}.
Variable N : nova.

(** Nova synthesizes the step circuit of [h] after its own allocations. *)
Definition nova_synthesize {A} (wit : bool) (inputs : prog (list allocated_num)) (h : block_header)
    (finish : res (list allocated_num) * st -> res A) : res A :=
  match run wit (let! z := inputs in synthesize h z) st_init with
  | (Panic, _) => Panic
  | r => finish r
  end.

(** [PublicParams::setup], [RecursiveSNARK::new] and [RecursiveSNARK::prove_step]. *)
Definition setup (h : block_header) : res (PP N) :=
  nova_synthesize false (shape_inputs N) h (shape_finish N).
(** [RecursiveSNARK::new] (validate_header.rs:88-97). *)
Definition rs_new (pp : PP N) (h : block_header) (z0 : list Z) : res (RS N) :=
  nova_synthesize true (new_inputs N pp z0) h (new_finish N pp).
(** [RecursiveSNARK::prove_step] (validate_header.rs:99-108). *)
Definition prove_step (pp : PP N) (rs : RS N) (h : block_header) : res (RS N) :=
  nova_synthesize true (step_inputs N pp rs) h (step_finish N pp rs).

(** validate_header.rs:78: block 123456, ten big-endian words. *)
Definition input : list (list Z) :=
  [[0x010000009500c43a; 0x25c624520b5100ad; 0xf82cb9f9da72fd24; 0x47a496bc600b0000; 0x000000006cd86237;
    0x0395dedf1da2841c; 0xcda0fc489e3039de; 0x5f1ccddef0e83499; 0x1a65600ea6c8cb4d; 0xb3936a1ae3143991]].

(** validate_header.rs:99-109: the loop over the blocks. *)
Fixpoint prove_steps (pp : PP N) (rs : RS N) (hs : list block_header) : io (RS N) :=
  match hs with
  | [] => pure (Ok rs)
  | h :: hs =>
      do rs := assert_ok (prove_step pp rs h) in
      do _ := say "RecursiveSNARK::prove_step " in
      prove_steps pp rs hs
  end.

(** validate_header.rs:76-179: the program from the blocks [blocks] on, once it has parameters. *)
Definition prove_all (pp : PP N) (blocks : list (list Z)) : io unit :=
  let hs := new_blocks blocks in
  do z0 := pure initial_z_i_scalars in
  do _ := say "Generating a RecursiveSNARK..." in
  do h := pure (idx hs 0) in
  do rs := assert_ok (rs_new pp h z0) in
  do rs := prove_steps pp rs hs in
  do _ := say "Total time taken by RecursiveSNARK::prove_steps: " in
  do _ := say "Verifying a RecursiveSNARK..." in
  do r := call (rs_verify N pp rs (List.length hs) z0) in
  do _ := say "RecursiveSNARK::verify: " in
  do _ := assert_ok r in
  do _ := say "Generating a CompressedSNARK using Spartan with IPA-PC..." in
  do k := assert_ok (compress_setup N pp) in
  do r := call (compress_prove N pp k rs) in
  do _ := say "CompressedSNARK::prove: " in
  do c := assert_ok r in
  do _ := say "Total proving time is " in
  do _ := say "CompressedSNARK::len " in
  do _ := say "Verifying a CompressedSNARK..." in
  do r := call (compress_verify N k c (List.length hs) z0) in
  do _ := say "CompressedSNARK::verify: " in
  do _ := assert_ok r in
  do _ := say "Total verification time: " in
  pure (Ok tt).

(** validate_header.rs:23-179 [main]. *)
Definition main : io unit :=
  do _ := say "Producing public parameters..." in
  do pp := assert_ok (setup default_header) in
  do _ := say "PublicParams::setup, took " in
  do _ := say "Number of constraints per step (primary circuit): " in
  do _ := say "Number of constraints per step (secondary circuit): " in
  do _ := say "Number of variables per step (primary circuit): " in
  do _ := say "Number of variables per step (secondary circuit): " in
  prove_all pp input.

End Driver.

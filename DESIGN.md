# Formal model of validate-btc-header: design

The subject is a set of rank-1-constraint-system (R1CS) gadgets written against
`bellpepper`, and the Nova step circuit that uses them to validate a Bitcoin header.
Two kinds of statement matter to a user:

* *soundness*: every assignment that satisfies the emitted constraints has the
  promised meaning, including assignments chosen by a malicious prover;
* *completeness*: the honest run does not fail or panic, and its own assignment
  satisfies the constraints, for all inputs.

Where the code does not have the property one would expect, the theorem says so: its name
ends in `_refuted` (or `_free`, `_panics`) and it constructs the failing case, for a whole
family of inputs wherever possible.

## Trusted base

* Coq 8.16.1's kernel, and `coqchk`, which rechecks all compiled files.
* `Print Assumptions` is run under every theorem in `theories/Properties`. For every one of
  them it prints "Closed under the global context": no axioms, neither own nor from the
  standard library.
* That the model says what the Rust code does. Each definition in `theories/Model` cites the
  file and lines it transcribes. The correspondence was made by reading; the code was not
  run, because its dependencies are not available here.
* That `theories/Spec` says what the properties mean. It uses the model's data types (states,
  assignments, wires, size parameters, field constants) and the carry width in side
  conditions. It calls modelled code in two ways. `SpecChain.v` repeats the output stage of
  the step circuit and `SpecLazy.v` repeats borrows of a cell. And `SpecExpr.v`, `SpecModular.v`, `SpecSub.v`,
  `SpecResidue.v`, `SpecCongruence.v`, `SpecComposite.v`, `SpecOrder.v`, `SpecTable.v` and `SpecSort.v` define programs that a
  caller of the API could write; these are not code of the repository, and C99, C100 and C105
  to C113 are statements about them. `SpecHeader.v` uses the word-level SHA-256 of
  `Model/Sha256.v`, which C88 proves equal to the standard's definition in `SpecSha.v`.
* The `Wf` conditions on the field: a prime modulus above 2, a byte representation long
  enough for it, and a bit length below 2^32. They are proved for the Pallas scalar field,
  for the field of `src/util/scalar.rs`, and for the small fields used in examples
  (`Proofs/Prime.v`, `Proofs/PrimeFields.v`, primality by Pocklington certificates).

## Layout

* `Model/`: transcription of the code, definitions only.
* `Spec/`: vocabulary of the statements (integers from limbs, wires and assignments, SHA-256d
  of a header, chains of blocks, circuit shape), definitions only.
* `Proofs/`: lemmas.
* `Properties/`: the theorems of MANIFEST.json, each followed by its assumptions, and
  examples that meet their hypotheses.

## Model

* `Env`: parameters that the Rust code is generic over: the field modulus, the length
  of the canonical byte representation, the overflow-check profile, and the result of
  the floating-point `log2` computation of carry widths.  Every theorem is for all
  values of these parameters, with explicit hypotheses.
* Field elements are canonical integers `0 <= x < modulus` (type `Z`).
* A gadget is a program in a free monad with the operations of a `ConstraintSystem`:
  allocate an auxiliary or input variable (with the witness closure), enforce
  `A * B = C`, enter and leave a namespace, return an error, panic.
* `run true` is a witness-generating constraint system (witness closures are called);
  `run false` is a shape constraint system (closures are never called).
* `sat rho s`: the assignment `rho` satisfies every constraint recorded in state `s`.
* Panics (`unwrap` on `None`, index out of range, `assert!`, arithmetic overflow) are
  explicit `Panic` results, errors are explicit `Err` results.

Proof methods: a weakest-precondition calculus for soundness (all assignments), one for
completeness (honest run), variants for exact satisfiability by extension of a given
assignment and for panics, and a relational one for shape independence; induction over
limbs, bits, inputs and histories; no bounds on any of them.

## What is modelled

| File in /repo | Model |
| --- | --- |
| src/lib.rs | `grab` (Base.v) |
| src/util/convert.rs, bit.rs, num.rs, lazy.rs | Util.v, all functions (`Display for Bitvector` in BignatMisc.v) |
| src/util/gadget.rs | Gadget.v, the trait's functions and `mux`, `mux_tree`, `switch` |
| src/util/scalar.rs | Fields.v, the modulus and representation length |
| src/mp/poly.rs | Poly.v, all functions |
| src/mp/bignat.rs | Bignat.v, BignatMisc.v, all functions (derived `Debug` output excepted) |
| src/btc_validation/median.rs | Median.v, all functions |
| src/btc_validation/difficulty_update.rs | Difficulty.v, all functions |
| src/btc_validation/hash_target.rs, prev_block_hash.rs | Difficulty.v; see below |
| src/btc_validation/header_step.rs | HeaderStep.v, all functions, `synthesize` cut in stages |
| examples/validate_header.rs | Driver.v; Nova is an arbitrary record of functions |

Simplifications and choices, each also noted at the definition:

* Sums and products of `usize` lengths and widths are not bounded by 2^64. Four subtractions
  can underflow. In `group_limbs` and `enforce_min_bits` both profiles are modelled. In the
  other two the model always says `Panic`; without overflow checks the result is a length
  near 2^64, on which the code panics or runs out of memory. The `u64`/`u128` arithmetic of
  header_step.rs is modelled in both profiles.
* Casts such as `as u32` on bit widths are the identity, except in `get_bit`.
* The f64 expression for the carry width is a parameter. Soundness theorems hold for every
  value of it. Completeness theorems state what they need of it (`carry_room`,
  `exact_carries`). `Model/F64.v` models the expression itself, operation by operation, for
  any `log2` that is faithful (returns a neighbouring f64 of the true logarithm, or the
  logarithm itself when it is a f64); C79 proves the conditions from that. Not modelled:
  signed zeros, subnormal numbers, 32-bit `usize`.
* In the circuits that hash, bellpepper's SHA-256 gadget is one macro constraint "the output
  wires are the SHA-256 of the input wires". SHA-256 is defined in Coq, proved equal to a
  transcription of FIPS 180-4 (C88) and pinned by the header of block 123456. The gadget's
  own constraints are transcribed in `Model/ShaGadget.v` and proved to force and to admit
  exactly that (C89). C92 proves that it takes 25840 constraints on a block of 512 allocated
  bits, the number in the crate's own test. The gadget's output bits can be negated or constant where the
  macro's are always plain allocated bits. `Model/RealHash.v` repeats the hashing circuits with the transcribed
  constraints in place of the macro, and C90 carries the main theorems over to them.
* The parts of bellpepper, ff and num-bigint that are used (`AllocatedNum`, `AllocatedBit`,
  `Boolean`, `LinearCombination`, `to_le_bits`, division of big integers) are transcribed
  from knowledge of these crates; their source is not available here.
* A satisfying assignment gives every variable a value; the first input is 1.
* Names of variables, constraints and namespaces are recorded; `run_test` (TestCS.v) makes
  the assertions on them that bellpepper's test constraint system makes. The one name that
  prints a field element (poly.rs "pointwise product") is rendered by its index, which is
  unique as long as there are fewer coefficients than field elements.
* hash_target.rs and prev_block_hash.rs are commented out in mod.rs. hash_target.rs calls
  `less_than` without a constraint system; the model supplies a namespace.

The unit tests are modelled as programs over their inputs in RepoTests.v and UnitTests.v.

Not modelled: Nova itself (folding, compression and verification), README, timing, memory use, and the security of SHA-256 and of the proof system.

## Mutation testing

`seeded/LOG.jsonl` has one line per wrong program tried. Each was made in a scratch copy by
editing one definition of the model. All files were rebuilt, with a script that admits each
proof that fails and goes on, and then lists the theorems that depend on an admitted proof.

## Plan and proof per property

* **C01** Field/integer conversion round-trip. f_to_nat and nat_to_f as functions on Z and byte lists; both compositions are the identity, by the base-256 expansion of canonical elements.
* **C02** nat_to_f does not detect numbers that are too big. Same functions; nat_to_f reduces modulo the field instead of returning None, so the two-way round trip is refuted for every number at or above the modulus.
* **C03** f_to_usize succeeds exactly below 256. f_to_usize reads only the lowest byte after asserting the others are zero: exact success condition and round trip.
* **C04** get_bit reads the canonical binary expansion. get_bit on the byte representation equals Z.testbit, and summing the bits gives back the element (induction on the number of bits).
* **C05** Limb split/join round-trip and exact error condition. nat_to_limbs / limbs_to_nat: digits in base 2^w, join after split is the identity, and the error occurs exactly when the number does not fit.
* **C06** An allocated Bit is boolean. Bit::alloc, not, constrain_value: every satisfying assignment is 0/1, the honest run satisfies, negation flips value and wire.
* **C07** Num::fits_in_bits is an exact range check. fits_in_bits: for every assignment, satisfiable by extension iff the wire value is below 2^n (soundness, completeness, exactness; induction on bits).
* **C08** fits_in_bits(0) behaves as a one-bit check. With n = 0 the gadget still allocates bit 0, so it is the one-bit check.
* **C09** Num::decompose is sound and complete. Num::decompose: bits recombine to the value modulo p; unique when 2^n <= p, a second decomposition is exhibited otherwise; panics listed.
* **C10** Bitvector operations keep wires and values aligned. All finite histories of Bitvector operations keep wires and values aligned; each operation is characterised on the integers.
* **C11** from_bits/into_bits round-trip. from_bits after into_bits is the identity on bits and value; pushing a valueless bit panics.
* **C12** Polynomial product gadget is exact. alloc_product: every satisfying assignment has the convolution as coefficients (a polynomial of degree < n with n roots modulo p is zero), and the honest run satisfies.
* **C13** Polynomial evaluation and sum. Evaluation and addition of polynomials over LCs evaluate to the field operations, for every assignment.
* **C14** equals returns the truth about field equality. equals returns a boolean equal to [a = b] in every satisfying assignment; honest run satisfies.
* **C15** equal enforces limb-wise equality. equal: constraints hold iff limbs agree; different widths or counts are the stated error.
* **C16** is_equal decides limb-wise equality. is_equal: result is the conjunction over limbs in every satisfying assignment, honest run satisfies, errors characterised.
* **C17** Allocation keeps value and limbs consistent. Both allocation functions: values, limbs and parameters are consistent; exact error conditions; they emit no constraint, so limbs are free until checked.
* **C18** from_num ties the limbs to the number. from_num ties the weighted limb sum to the number modulo p; completeness when it fits.
* **C19** from_num with 4 limbs of 64 bits is ambiguous. Consequence of C18 modulo p: every limb vector with the right residue is accepted, so 4x64 limbs over a 255-bit field represent a number in more than one way.
* **C20** assert_well_formed is an exact limb range check. assert_well_formed holds iff all limbs are below 2^w (exact, both directions).
* **C21** decompose and recompose preserve the value. decompose and recompose preserve the number; panic conditions of recompose, and the one case where no bits are accepted (no overflow checks, one bit per limb).
* **C22** enforce_full_bits and enforce_min_bits bound the number from below. enforce_full_bits / enforce_min_bits: lower bound in every satisfying assignment; honest acceptance iff the bound holds; short operands and zero.
* **C23** concat is positional concatenation. concat is positional concatenation of limb lists; error on different widths.
* **C24** truncate_limbs keeps the low limbs. truncate_limbs keeps the low limbs and the residue modulo 2^(w*n).
* **C25** truncate_limbs and scale can leave a false minimum-bits bound. The recorded min_bits stays a valid lower bound through add, shift, scale (nonzero), grouping, padding, mult, mux, sub; refuted for truncate_limbs and for scale by 0.
* **C26** add, shift and scale are exact while words stay below the modulus. add, shift, scale are exact while words stay below p; refuted beyond; panics listed.
* **C27** group_limbs preserves the represented number. group_limbs preserves the number and the word bound; when it panics.
* **C28** equal_when_carried is sound. Carry chain: every satisfying assignment makes the integers equal, under a no-wraparound condition on the field size (induction over limbs).
* **C29** equal_when_carried accepts equal numbers of equal limb count. Honest run accepts equal numbers, same limb counts or zero excess limbs, under a room condition on the carry width.
* **C30** equal_when_carried rejects some equal numbers. Exact characterisation of accepted pairs; two families of equal numbers that are rejected.
* **C31** equal_when_carried_regroup is sound. Same for the regrouped comparison, plus lemmas that its size conditions hold for the operand shapes the library produces.
* **C32** mult computes the product. mult: soundness for all assignments, completeness, and the instance for the Pallas scalar field with 64-bit limbs.
* **C33** mult rejects honest products at some limb counts. Exact acceptance condition of mult; the 1x2-limb instance rejects every product of at least 2^128.
* **C34** mult_mod enforces a*b = q*m + r. Division identity with range-checked quotient and remainder; honest run returns div and mod; condition for the quotient to fit.
* **C35** mult_mod does not enforce remainder < modulus. Every in-range pair satisfying the identity is accepted, hence remainder + modulus too (refutation of uniqueness).
* **C36** red_mod and assert_product_mod enforce the division identity. Same for red_mod (also refuted uniqueness) and assert_product_mod.
* **C37** divides enforces divisibility. divides: soundness, honest completeness, error when the divisor does not divide.
* **C38** min does not enforce the minimum. Honest run returns the smaller operand; the constraints also accept the other one (refuted).
* **C39** n_bits bounds the bit length of carried numbers only. n_bits bounds carried numbers; refuted for uncarried ones; panic on empty numbers.
* **C40** with_n_limbs and one. with_n_limbs pads with zeros or panics; one is 1.
* **C41** mux selects. mux: selected operand in every satisfying assignment, honest completeness, error on different widths.
* **C42** mux_tree indexes its inputs. mux_tree: induction on the selector bits; wrong input counts are refused.
* **C43** switch swaps or not. switch: pair kept or swapped, soundness and completeness.
* **C44** assert_equal, inputize and as_nums tie wires. Wire equality, public inputs and as_nums: exact meaning of the emitted constraints and honest completeness.
* **C45** LazyCell forces at most once. LazyCell as a state machine; invariant over all histories of borrows and drops, whose outcomes equal those of a separate two-line specification.
* **C46** compute_median_timestamp returns the upper median. Median of the sorted vector, characterised by counts and shown unique; panic on the empty vector.
* **C47** less_than is exact up to 126 bits in the honest run. Honest run of less_than equals x <? y up to 126 bits, for all operands in range and all fields large enough.
* **C48** less_than above 126 bits never says yes for in-range operands. From 127 bits on the answer is always no (shift constant overflows its intended place).
* **C49** leq is exact up to 126 bits in the honest run. Honest run of leq equals x <=? y up to 126 bits.
* **C50** less_than and leq are not enforced by the circuit. Both results satisfy the constraints for any operands (witness assignments constructed).
* **C51** verify_median_timestamp accepts exactly the values with a minority above. Honest result as a formula in the counts for every length below 2^32, specialised to <= 11 timestamps; accepted up to 23, refuted at 24.
* **C52** calculate_difficulty_update computes floor(prev*t/1209600). Honest quotient, panics outside the span, what constraints imply, and the unenforced divisor.
* **C53** verify_difficulty_update accepts exactly the floor quotient in the honest run. Honest run satisfies iff the new target is the floor quotient; prover can satisfy always.
* **C54** verify_current_hash (module not compiled in). Module not compiled in; modelled with a namespace supplied for the missing argument. Exact region in which the comparison is right.
* **C55** check_prev_hash (module not compiled in) compares double SHA-256 on the zipped prefix. Module not compiled in; honest run satisfies iff the zipped prefix agrees with SHA256d; unenforced.
* **C56** synthesize never returns. synthesize indexes an empty output vector: for every header, state and mode it panics.
* **C57** Shape extraction panics at the first assertion. Without witnesses the step panics at the first assertion, after 262 constraints.
* **C58** Previous-hash check compares the right bytes. Exact acceptance of the previous-hash stage below 2^255 and both profiles above.
* **C59** No target is decoded correctly from nBits. Exact result of the nBits decoding in both profiles; never a correct non-zero target.
* **C60** No timestamp is decoded correctly. Exact result of the timestamp decoding in both profiles; never a correct non-zero time.
* **C61** The work constraint requires exact division. Work constraint: honest satisfaction iff the product is the maximum target; free otherwise.
* **C62** Target-update constraints encode the intended choice. Target update stage: what the constraints force, exact honest condition, freedom, panics.
* **C63** State transition of the outputs if the vector were pre-sized. Output stage with a pre-sized vector, lifted to chains of any length by induction.
* **C64** Constraint shape does not depend on the witness. Relational proof (sh): two runs on inputs that differ only in witness values emit identical constraint and name lists, for every gadget and stage.
* **C65** Number equality after bit-vector operations. Num::is_equal compares LCs only; exact meaning, and the stale-value case after bit-vector operations.
* **C66** Quotient allocated too short. One limb too few for the quotient when the bit counts align: the honest run fails.
* **C67** Subtraction is exact only for range-checked results. sub: exact if the result is range checked, honest completeness, wrap-around accepted otherwise.
* **C68** Regrouped comparison needs its size condition. Concrete small-field numbers for which the regrouped comparison accepts different integers.
* **C69** verify_median_timestamp is not enforced by the circuit. Either result of the median check satisfies the constraints.
* **C70** verify_median_timestamp cannot be synthesised without witnesses. Panics without witnesses iff the vector is non-empty.
* **C71** less_than and leq panic on widths at or above the field size. Widths at or above NUM_BITS panic.
* **C72** The difficulty functions panic without witnesses. Both difficulty functions panic without witnesses.
* **C73** Pre-sizing the output vector does not make the step work. Even with a pre-sized output vector the honest run panics.
* **C74** The proof-of-work check rejects every valid block. Exact condition of the proof-of-work stage, and rejection of every valid block.
* **C75** Header data are not bound by the constraints. Stage constraints leave previous hash, target and hash free (assignments constructed).
* **C76** The built-in initial state does not fit the step. Decimal constants parsed by the modelled from_str_vartime; the initial state is exact in every field of 208 bits, and the target update panics on every epoch start outside the span bounds.
* **C77** Comparison, trait allocation and display of numbers. PartialEq, Gadget::alloc and Display of BigNat and Display of Bitvector in BignatMisc.v; iff statements, and refutations for wires.
* **C78** No gadget uses a name twice. TestCS.v models the two assertions on names; one theorem per gadget that the checked run is the plain run (a calculus of the name patterns used directly in a namespace, with decided disjointness and injectivity of decimal rendering), closure under calls in distinct namespaces, and the panic of a repeated one.
* **C79** Carry widths computed in floating point. Model/F64.v models to_f64, the doubling, the subtraction, ceil, the addition of 0.1 and the saturating cast with IEEE rounding, for any faithful log2 (shown to exist). Width against the exact one for all words below 2^1020; the words of full-limb operations have exact widths, which discharges the carry conditions of C31, C32, C52, C53 and C62; a shift by 2 whose honest comparison is rejected.
* **C80** Numbers moved between the two number types. Soundness, honest completeness and extension of any assignment for as_sapling_allocated_num; the same for Num::alloc; From<AllocatedNum> keeps wire and value.
* **C81** Circuit size is a fixed function of the sizes. Size calculus (Proofs/SizeP.v): exact numbers of inputs, auxiliary variables and constraints of every successful run, in either mode, against closed formulas in Spec/SpecSize.v. The SHA-256 gadget is one macro constraint in the model, so circuits containing it are not counted.
* **C82** A proving run on wrong values is rejected by the constraints, not by a crash. Proofs/Total.v: a calculus of honest runs that ignores constraints (normal end on all values), combined with the soundness and completeness calculi into exact verdicts.
* **C83** The project's own test circuits give the right verdict on every input. Model/RepoTests.v models the test circuits and the circuit_tests! verdict; Proofs/DecP.v combines normal end, soundness and completeness of honest runs into exact verdicts; TestsFr.v discharges the size conditions over the test field with floating point carry widths.
* **C84** The remaining unit tests assert what holds on every input. Model/UnitTests.v models the tests as programs over their inputs; the outcomes follow from C14, C46, C47, C49, C51 to C55, C78 and C82.
* **C85** Exact verdict of products and divisions, including right answers that are rejected. Proofs/ExactP.v: the exact verdict calculus of C83 carried through the products and divisions with the excess limbs kept; the conditions of C33 to C37 and C82 (fits_groups) are sufficient cases of the exact ones in Spec/SpecExact.v.
* **C86** Which recomputed targets calculate_difficulty_update accepts, exactly. Proofs/DiffExact.v and Proofs/HeaderExact.v: the verdict calculus of C83/C85 carried through the difficulty update; the Pallas and test-field forms discharge every side condition.
* **C87** The example program never gets past parameter setup. Model/Driver.v models the program with Nova as an arbitrary record of functions; follows from C56 by the order of its steps.
* **C88** The hash in the circuits is the SHA-256 of FIPS 180-4, applied twice. Spec/SpecSha.v transcribes the standard on bit lists, with the constants given by the root property; Proofs/ShaP.v proves the word-level model equal to it (bitwise lemmas, induction over schedule, rounds and blocks). The gadget's own constraints are treated in C89.
* **C89** The constraints of the SHA-256 gadget force and admit exactly the digest. Model/ShaGadget.v transcribes bellpepper's gadget (Boolean xor/ch/maj, UInt32, MultiEq, schedule, rounds, padding). The rounds are proved once over an abstract program logic (Proofs/ShaLogic.v), instantiated for satisfied constraints, where sums are known only once the packed equality is emitted, and for a prover who picks each value at its allocation (Proofs/Ewp.v).
* **C90** The hashing circuits keep their verdicts with every constraint of the SHA-256 gadget. Model/RealHash.v repeats the hashing circuits with the gadget as a parameter; C90_same_text ties them to the ones used elsewhere. Proofs/RealHashP.v asks three things of a gadget (honest, sound, extending), which C89 provides. Variables are named by position (Spec/SpecWires.v) so that soundness speaks of what the circuit really holds.
* **C91** The hashing circuits are the same circuit for parameters and proof, with every constraint of the SHA-256 gadget. The calculi of C64 and C78 (Proofs/ShapeP.v, Proofs/NamesP.v) extended to the gadget; setup is proved total through the shape mode of the logic of C89. Nothing is claimed of whole steps here beyond names, because a step never completes (C56).
* **C92** Exact size of the hashing circuits. Proofs/ShaSize.v evaluates the gadget on the forms of its input bits (constant or wire), proves by simulation that the evaluation counts every successful run of the gadget, and computes it. A case of the proof-of-work stage needs a prime just above a hash, given with its certificate in Proofs/ShaSizeEx.v. 25840 constraints for one compressed block is also the figure recalled from the test of the gadget in bellpepper (not checked here).
* **C93** The validation functions never return a SynthesisError. A weakest precondition for runs in which no closure and no statement fails (Proofs/ErrP.v); an unwrapped call meets it by construction, so what remains are the last gadgets of less_than, leq and verify_current_hash, which are returned without unwrap and need values on the numbers allocated before.
* **C94** Taking a BigNat apart into its limbs and putting it together. Exact evaluation of as_limbs (Proofs/AsLimbs.v).
* **C95** The recomputed target in closed form. Spec/SpecTarget.v states the closed form and Bitcoin's rule; Proofs/TargetP.v evaluates the closure and compares the two; Proofs/TargetTop.v carries the result to the stage over the Pallas scalar field. Replaces the hypothesis on the closure in C62 and C86 by a formula.
* **C96** What less_than and leq answer on every pair of operands. Proofs/CmpP.v computes the shift constant for every width and turns the residue condition into intervals; drops the range hypotheses of C47-C49.
* **C97** Operands outside the domain: negative numbers, borrows, zero divisors, results too large, mixed widths. Proofs/OutOfRange.v: nat_to_limbs takes residues of negative numbers; the decision calculus gives the verdict of sub on a borrow; the other cases run the head of the program.
* **C98** Exactly which values the comparison, selection, product and bit-check gadgets admit for any prover. Proofs/Relation.v: alternative assignments for each gadget (awp/pwp) joined with soundness (swp) into equivalences.
* **C99** Any arithmetic written with the big-number operations computes the integer it denotes. Spec/SpecExpr.v: expressions, denotation, size conditions; Proofs/Expr.v: induction over the expression with swp for every assignment and awp for honest and arbitrary provers. For arbitrary provers concatenation is left out because its recorded limb values have the wrong length when only the lower operand has values.
* **C100** Chains of modular operations compute the right residue, and square-and-multiply computes powers. Spec/SpecModular.v: operations, denotation, sizes, square and multiply; Proofs/Modular.v: induction over the sequence with swp and awp. A result need not be the least residue for a dishonest prover (C35), hence congruence; the honest value is the least residue.
* **C101** No hidden freedom: the wires a gadget adds are determined by its inputs. Spec/SpecUnique.v: agreement of two assignments on the variables of a state; Proofs/Unique.v: a calculus (uwp) that runs a program under two assignments and collects the variables allocated; UniqueG, UniqueC, UniqueD: one lemma per gadget, from the soundness lemmas for both assignments; circuits by induction over the expression. The gadgets that do leave freedom are in C19, C35, C38, C50 and C67.
* **C102** Constraints refer only to wires that exist, and gadgets only add. Spec/SpecScope.v: closed states, scoped calls, growth; Proofs/Scope.v: a calculus (kwp) over the set of variables of the final state and one lemma per gadget; ScopeH: comparison, difficulty, both hash gadgets, the step circuit; TopScope: the run lemma by induction over programs, growth, locality of satisfaction, chaining.
* **C103** The bits hashed determine every wire of the hash circuit. Proofs/UniqueSha.v: the uniqueness calculus of C101 for the operations on bits and words, the packed sums of the adder (a multi-bit sum with a bounded carry has one representation), and the instance of ShaLogic for whole messages; TopUniqueSha: hash, hash of hash, previous-hash check, binding to the hash up to a collision read off the assignments, existence by C89.
* **C104** Numbers in full 64-bit limbs over the fields in use: exact verdicts without side conditions. Proofs/Wide.v: with 64-bit limbs and a capacity of 236 to 255 bits the merged groups have 3 limbs (equality) or 2 (products), carries have room and do not wrap; the exact verdicts of C33, C82 and C85 then lose their side conditions. Fields and allocation are shown to meet the hypotheses.
* **C105** Modular multiplication chains and powers of numbers in full 64-bit limbs need no size condition. Proofs/WidePower.v: every operation of a chain on equally many limbs meets the room and fit conditions of C100 (2n limbs are an even number), by induction on the chain.
* **C106** Subtraction followed by a range check of the result is an exact comparison. Spec/SpecSub.v composes the two calls of the API. Proofs/CheckedSub.v: soundness and completeness of sub (C67) with an arbitrary in-range difference, the range check removing all others; limbs beyond the common groups are shown empty from the sizes of the integers.
* **C107** One comparison at the end makes a chain of modular operations exact for every prover. Spec/SpecResidue.v composes the calls of the API. Proofs/Residue.v: the chain invariant of C105 (congruence, limbs in range) followed by the exact comparison of C106; completeness by the same program of wires as C105 with the digits of the difference appended.
* **C108** A modular product with a factor chosen by the prover is satisfiable exactly if the congruence is solvable. Spec/SpecCongruence.v composes the calls of the API; the claim is stated with Z.gcd, Z.divide and rel_prime of the standard library. Proofs/Congruence.v: soundness and completeness of assert_product_mod with an arbitrary in-range factor, Bezout for the existence of a solution below the modulus.
* **C109** A proper divisor chosen by the prover can be supplied exactly for composite numbers. Spec/SpecComposite.v composes the calls of the API; the claim is stated with prime and Z.divide of the standard library. Proofs/Composite.v: soundness and completeness of the four calls in sequence, and the existence of a divisor not above the square root. The number c - 1 is a second input: the caller must establish the relation between the two.
* **C110** Comparisons by checked subtraction along a list force its order. Spec/SpecOrder.v composes the calls of the API; the claim is stated with StronglySorted of the standard library. Proofs/Order.v: induction over the list with the exact comparison of C106.
* **C111** A minimum that the circuit enforces. Spec/SpecOrder.v composes the calls of the API. Proofs/Order.v: the selection of C41 followed by two exact comparisons.
* **C112** Exactly the entries of a table can be picked at a position the prover chooses. Spec/SpecTable.v composes the calls of the API. Proofs/Table.v: the selection of C42 both ways, with a bit list for each position, followed by limb-wise equality.
* **C113** A sorted copy of a list, and its median, enforced by the circuit. Spec/SpecSort.v composes the calls of the API; the claim is stated with Permutation and StronglySorted of the standard library. Proofs/Sort.v: every switch permutes its two numbers, and C110 gives the order.
* **C114** Headers reach the step as given, and a valid successor of the built-in state is refused. Spec/SpecNext.v states the conditions on the fields of the header bytes. Proofs/NextP.v uses the state of C76 and the digest computed with the SHA-256 that C88 relates to the standard.
* **C115** The time stage reads the low 32 bits of the eleven timestamps of the state, and nothing else of it. Spec/SpecTimes.v names the eleven positions and what the state has there. Proofs/TimesP.v: the list of timestamps is computed entry by entry before the stage emits anything.

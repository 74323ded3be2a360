{"id": "C01", "title": "Field/integer conversion round-trip", "statement": "For every integer 0 <= n < modulus, converting n to a scalar and back yields n; for every scalar, converting it to an integer and back yields the same scalar.", "quantifier": "all non-negative integers below the modulus and all scalars, for every prime field with a little-endian representation", "why_tests_cant": "The field has about 2^255 elements; tests try the number 4.", "anchors": ["src/util/convert.rs: f_to_nat, nat_to_f"]}
{"id": "C02", "title": "nat_to_f does not detect numbers that are too big", "statement": "The documentation says nat_to_f returns None when the number is too big for the field. In fact, for every n >= 0 it returns Some(n mod modulus), and it returns None exactly for negative n, so a too-big number is silently reduced.", "quantifier": "all integers n, negative and non-negative, of any size", "why_tests_cant": "The claim is about all integers above the modulus; no test feeds one.", "anchors": ["src/util/convert.rs: nat_to_f"]}
{"id": "C03", "title": "f_to_usize succeeds exactly below 256", "statement": "f_to_usize(f) returns the integer value of f when that value is below 256 and panics for every other scalar, so usize_to_f followed by f_to_usize is the identity exactly on 0..255.", "quantifier": "all scalars and all usize values", "why_tests_cant": "Tests use the single value 4; the boundary at 256 and everything above is untested.", "anchors": ["src/util/convert.rs: f_to_usize, usize_to_f"]}
{"id": "C04", "title": "get_bit reads the canonical binary expansion", "statement": "For every scalar and every index i below 2^32: get_bit(i) is Some(bit i of the canonical integer value) when i < NUM_BITS and None otherwise, and the bits below NUM_BITS recompose to exactly the value of the scalar. An index of 2^32 or more whose low 32 bits are below NUM_BITS makes get_bit panic.", "quantifier": "all scalars and all bit indices", "why_tests_cant": "2^255 scalars times 255 indices.", "anchors": ["src/lib.rs: BitAccess::get_bit"]}
{"id": "C05", "title": "Limb split/join round-trip and exact error condition", "statement": "nat_to_limbs(n, w, k) on n >= 0 succeeds iff n < 2^(w*k); when it succeeds (w below the field bit width) it returns k limbs, each below 2^w, and limbs_to_nat of them is n. Conversely splitting the join of k limbs below 2^w returns the same limbs.", "quantifier": "all naturals n, all limb widths and limb counts, all limb vectors", "why_tests_cant": "Unbounded widths, counts and values.", "anchors": ["src/mp/bignat.rs: nat_to_limbs, limbs_to_nat, int_with_n_ones"]}
{"id": "C06", "title": "An allocated Bit is boolean", "statement": "In every assignment that satisfies the constraints emitted by Bit::alloc the wire is 0 or 1, and the honest witness satisfies them; Bit::not evaluates to one minus the bit, constrain_value(v) is satisfied exactly when the bit equals v.", "quantifier": "all satisfying assignments over every prime field; both boolean values", "why_tests_cant": "Soundness ranges over all assignments a malicious prover could choose, tests only run the honest one.", "anchors": ["src/util/bit.rs: Bit::alloc, constrain_value, not, new_true, new_false, new_value"]}
{"id": "C07", "title": "Num::fits_in_bits is an exact range check", "statement": "For 1 <= n < NUM_BITS: every satisfying assignment of the constraints of fits_in_bits(n) gives the number a value in [0, 2^n), and for every value in [0, 2^n) the honest witness satisfies them; if the value is >= 2^n no assignment of the auxiliary bits satisfies them.", "quantifier": "all n, all field values, all assignments of the auxiliary bits", "why_tests_cant": "Range over all assignments; tests check three literals.", "anchors": ["src/util/num.rs: Num::fits_in_bits"]}
{"id": "C08", "title": "fits_in_bits(0) behaves as a one-bit check", "statement": "fits_in_bits with n_bits = 0 does not force the value to be zero: its constraints are satisfied exactly by the values 0 and 1, as for n_bits = 1.", "quantifier": "all values and assignments at width zero", "why_tests_cant": "No test uses width zero.", "anchors": ["src/util/num.rs: Num::fits_in_bits"]}
{"id": "C09", "title": "Num::decompose is sound and complete", "statement": "For every width n <= NUM_BITS and honest value v, decompose(n) emits constraints satisfied iff v < 2^n and returns the n low-order bits little-endian; in every satisfying assignment the returned wires are bits whose weighted sum is congruent to the number, and (n < NUM_BITS) they are exactly its binary expansion. For n > NUM_BITS a witness-generating run panics.", "quantifier": "all widths, values and satisfying assignments", "why_tests_cant": "All assignments and all widths.", "anchors": ["src/util/num.rs: Num::decompose, Num::is_equal"]}
{"id": "C10", "title": "Bitvector operations keep wires and values aligned", "statement": "For every sequence of reversed/truncate/shl/shr(in range)/push/insert/append/pop applied to a bitvector whose wires evaluate to its values, with pushed bits that carry values, the wires still evaluate to the values; shl by i multiplies the represented number by 2^i, shr by i divides it by 2^i, truncate n takes it mod 2^n.", "quantifier": "all bitvectors and all finite operation histories", "why_tests_cant": "Quantifies over operation histories of any length.", "anchors": ["src/util/bit.rs: Bitvector"]}
{"id": "C11", "title": "from_bits/into_bits round-trip", "statement": "into_bits(from_bits(bs)) returns bs when every bit has a value (or none has), and from_bits keeps wires in order; if only some bits have values, the values are dropped for all of them.", "quantifier": "all vectors of bits", "why_tests_cant": "Vectors of any length and any mix of present and missing values.", "anchors": ["src/util/bit.rs: Bitvector::from_bits, into_bits"]}
{"id": "C12", "title": "Polynomial product gadget is exact", "statement": "In every satisfying assignment of alloc_product, the coefficients of the product polynomial are congruent to the convolution of the coefficients of the factors (whenever the number of product coefficients is below the modulus), and the honest witness satisfies the constraints, also when one of the factors is empty; two empty factors panic.", "quantifier": "all coefficient vectors of any lengths, all satisfying assignments, every prime field larger than the number of coefficients", "why_tests_cant": "A statement about all polynomials and all assignments (an interpolation argument).", "anchors": ["src/mp/poly.rs: Polynomial::alloc_product"]}
{"id": "C13", "title": "Polynomial evaluation and sum", "statement": "evaluate_at(x) is the sum of coefficient times power; evaluation of sum(p,q) is the sum of evaluations and evaluation of the allocated product values is the product of the evaluations, at every point.", "quantifier": "all polynomials and all points", "why_tests_cant": "All polynomials and points.", "anchors": ["src/mp/poly.rs: Polynomial::evaluate_at, sum, alloc_product"]}
{"id": "C14", "title": "equals returns the truth about field equality", "statement": "BigNat::equals(a,b): in every satisfying assignment the returned boolean is 1 iff a = b in the field (never anything but 0 or 1); the honest run succeeds, satisfies its constraints and returns the value of a == b.", "quantifier": "all pairs of field elements, all satisfying assignments", "why_tests_cant": "All assignments, including a malicious choice of the inverse witness.", "anchors": ["src/mp/bignat.rs: BigNat::equals"]}
{"id": "C15", "title": "equal enforces limb-wise equality", "statement": "The constraints of BigNat::equal are satisfied iff the common low limbs agree in the field and every extra limb of the longer operand is zero, regardless of argument order; different limb widths give an error and no panic.", "quantifier": "all pairs of big naturals with any limb counts, all assignments", "why_tests_cant": "All limb counts and assignments.", "anchors": ["src/mp/bignat.rs: BigNat::equal, enforce_limb_width_agreement"]}
{"id": "C16", "title": "is_equal decides limb-wise equality", "statement": "For operands with the same limb count and width, in every satisfying assignment the boolean returned by is_equal is 1 iff all limbs agree; the honest run returns the right boolean; different limb counts or widths return an error.", "quantifier": "all operands and satisfying assignments, any limb count", "why_tests_cant": "Any limb count, all assignments.", "anchors": ["src/mp/bignat.rs: BigNat::is_equal"]}
{"id": "C17", "title": "Allocation keeps value and limbs consistent", "statement": "alloc_from_nat / alloc_from_limbs / from_limbs: the value recorded in the returned number is the base-2^w value of its limb values; alloc_from_nat fails exactly when the number does not fit; alloc_from_limbs fails exactly on a limb-count mismatch; none of them emits any constraint.", "quantifier": "all naturals, widths, limb counts and limb vectors", "why_tests_cant": "Unbounded parameters.", "anchors": ["src/mp/bignat.rs: BigNat::alloc_from_nat, alloc_from_limbs, from_limbs, as_limbs"]}
{"id": "C18", "title": "from_num ties the limbs to the number", "statement": "In every satisfying assignment of from_num(n, w, k) each limb is below 2^w (for w < NUM_BITS) and the base-2^w value of the limbs is congruent to n; if also w*k < NUM_BITS that value equals n. The honest run satisfies its constraints whenever n < 2^(w*k).", "quantifier": "all numbers, widths, limb counts and satisfying assignments", "why_tests_cant": "All assignments.", "anchors": ["src/mp/bignat.rs: BigNat::from_num"]}
{"id": "C19", "title": "from_num with 4 limbs of 64 bits is ambiguous", "statement": "At the width used by calculate_difficulty_update (4 limbs of 64 bits over a 255-bit field) from_num does not determine the integer: for small n there is a second satisfying assignment in which the limbs represent n + modulus.", "quantifier": "exists a number and two satisfying assignments (shown for every n with n + modulus < 2^256)", "why_tests_cant": "Tests run only the honest witness; the second assignment is only available to a malicious prover.", "anchors": ["src/mp/bignat.rs: BigNat::from_num", "src/btc_validation/difficulty_update.rs: calculate_difficulty_update"]}
{"id": "C20", "title": "assert_well_formed is an exact limb range check", "statement": "The constraints of assert_well_formed are satisfiable by some choice of auxiliary bits iff every limb is below 2^limb_width (1 <= limb_width < NUM_BITS).", "quantifier": "all big naturals with any number of limbs and all assignments", "why_tests_cant": "Any limb count, all assignments.", "anchors": ["src/mp/bignat.rs: BigNat::assert_well_formed"]}
{"id": "C21", "title": "decompose and recompose preserve the value", "statement": "BigNat::decompose returns limb_width*n_limbs bits that in every satisfying assignment are the binary expansion of the number, low-order first; recompose of a bitvector with m >= 1 bits and group width g >= 1 has the value of the bitvector. It panics for g = 0, and for no bits unless g = 1 and overflow checks are off.", "quantifier": "all big naturals, bit counts and group widths", "why_tests_cant": "Any number of limbs and bits.", "anchors": ["src/mp/bignat.rs: BigNat::decompose, recompose"]}
{"id": "C22", "title": "enforce_full_bits and enforce_min_bits bound the number from below", "statement": "In every satisfying assignment of enforce_full_bits the value is at least 2^(limb_width*n_limbs-1) when the limbs are in range; of enforce_min_bits(k), k >= 1, at least 2^(k-1). The honest run succeeds exactly when the bound holds (enforce_min_bits panics otherwise; enforce_full_bits is left unsatisfied). enforce_min_bits(0) panics or leaves constraints that nothing satisfies.", "quantifier": "all numbers, all k, all satisfying assignments", "why_tests_cant": "All assignments and values.", "anchors": ["src/mp/bignat.rs: BigNat::enforce_full_bits, enforce_min_bits"]}
{"id": "C23", "title": "concat is positional concatenation", "statement": "concat(hi, lo) represents hi * 2^(width*limbs(lo)) + lo, its limbs are those of lo followed by those of hi, the recorded bounds (max_word, min_bits) stay valid; different widths give an error.", "quantifier": "all pairs of big naturals", "why_tests_cant": "Any limb counts and values.", "anchors": ["src/mp/bignat.rs: BigNat::concat"]}
{"id": "C24", "title": "truncate_limbs keeps the low limbs", "statement": "truncate_limbs(n) keeps the n low-order limbs and its value is the base-2^w value of those limbs (all limbs if there are no more than n).", "quantifier": "all big naturals and limb counts", "why_tests_cant": "Unbounded limb counts.", "anchors": ["src/mp/bignat.rs: BigNat::truncate_limbs"]}
{"id": "C25", "title": "truncate_limbs and scale can leave a false minimum-bits bound", "statement": "The recorded min_bits of the result of truncate_limbs (and of scale by zero) can exceed the number of bits the result really has, so the invariant 'min_bits is a lower bound on the bit length' is not preserved by these operations, while concat, add, mult and the others preserve it.", "quantifier": "exists numbers for the failing operations; all numbers for the preserving ones", "why_tests_cant": "An invariant over all operation results.", "anchors": ["src/mp/bignat.rs: BigNat::truncate_limbs, scale, concat, add"]}
{"id": "C26", "title": "add, shift and scale are exact while words stay below the modulus", "statement": "add, shift and scale return numbers whose recorded value is the sum, the sum with the constant, the product with the constant, whose limb wires evaluate to the limb values, and whose recorded max_word bounds every limb, provided the new max_word is below the modulus. shift and scale panic when max_word exceeds 2^CAPACITY; add performs no such check and returns inconsistent value/limbs for some inputs.", "quantifier": "all operands and constants", "why_tests_cant": "All values; the overflow corner is near the modulus.", "anchors": ["src/mp/bignat.rs: BigNat::add, shift, scale"]}
{"id": "C27", "title": "group_limbs preserves the represented number", "statement": "For every group size g >= 1 and at least one limb: group_limbs(g) has ceil(n/g) limbs of width g*w, its wires evaluate to the grouped sums, its base-2^(g*w) value is the same integer as before (when the grouped words stay below the modulus) and its max_word bounds each grouped limb. It panics for g = 0, and for no limbs unless g = 1 and overflow checks are off.", "quantifier": "all big naturals, all group sizes", "why_tests_cant": "Any limb count and group size.", "anchors": ["src/mp/bignat.rs: BigNat::group_limbs"]}
{"id": "C28", "title": "equal_when_carried is sound", "statement": "If the constraints of equal_when_carried are satisfied, both operands have limbs bounded by their max_word, and the parameters do not overflow the field, then both operands represent the same integer.", "quantifier": "all operands of any limb counts and every satisfying assignment (malicious carries included), every carry width admitted by the no-overflow condition", "why_tests_cant": "The carries are chosen by the prover; all choices must be covered.", "anchors": ["src/mp/bignat.rs: BigNat::equal_when_carried"]}
{"id": "C29", "title": "equal_when_carried accepts equal numbers of equal limb count", "statement": "When both operands have the same number of limbs, represent the same integer, have limbs bounded by max_word and 2*max_word < 2^carry_bits*(2^limb_width-1), the honest run succeeds and satisfies all constraints.", "quantifier": "all equal pairs of operands with that bound", "why_tests_cant": "All pairs of representations.", "anchors": ["src/mp/bignat.rs: BigNat::equal_when_carried"]}
{"id": "C30", "title": "equal_when_carried rejects some equal numbers", "statement": "equal_when_carried is not complete: with limb width 3 and max_word 15 the equal numbers [15,15,x] and [7,0,x+2] are rejected because an honest carry does not fit the computed carry width, and equal numbers with different limb counts such as [8] and [0,1] are rejected because the extra limb is forced to zero.", "quantifier": "exists pairs of equal operands", "why_tests_cant": "The documentation promises equality after carrying for all operands; only a counterexample search over representations finds this.", "anchors": ["src/mp/bignat.rs: BigNat::equal_when_carried"]}
{"id": "C31", "title": "equal_when_carried_regroup is sound", "statement": "Regrouping does not weaken the check: satisfied constraints of equal_when_carried_regroup imply that both operands represent the same integer, under the no-overflow condition of the grouped parameters.", "quantifier": "all operands, limb counts, group sizes computed by the code, and satisfying assignments", "why_tests_cant": "All assignments.", "anchors": ["src/mp/bignat.rs: BigNat::equal_when_carried_regroup, group_limbs"]}
{"id": "C32", "title": "mult computes the product", "statement": "In every satisfying assignment of mult the returned limbs are in range and represent the product of the two operands as integers, under the no-overflow condition; when the number of limb groups of the two sides agree the honest run succeeds and satisfies all constraints.", "quantifier": "all operands and satisfying assignments", "why_tests_cant": "All values and assignments.", "anchors": ["src/mp/bignat.rs: BigNat::mult, verify_mult"]}
{"id": "C33", "title": "mult rejects honest products at some limb counts", "statement": "mult is not complete: for a one-limb times two-limb product at width 64 (over a 255-bit field) whose product needs the third limb, the honest run produces unsatisfied constraints.", "quantifier": "exists operands", "why_tests_cant": "Depends on the interplay of the limb count and the group size.", "anchors": ["src/mp/bignat.rs: BigNat::mult, equal_when_carried_regroup"]}
{"id": "C34", "title": "mult_mod enforces a*b = q*m + r", "statement": "In every satisfying assignment of mult_mod the returned quotient and remainder satisfy self*other = quotient*modulus + remainder over the integers with all limbs in range (under the no-overflow condition); the honest run returns the Euclidean quotient and remainder.", "quantifier": "all operands, moduli and satisfying assignments", "why_tests_cant": "All values and assignments.", "anchors": ["src/mp/bignat.rs: BigNat::mult_mod"]}
{"id": "C35", "title": "mult_mod does not enforce remainder < modulus", "statement": "The result of mult_mod is not determined by its inputs: there are satisfying assignments whose remainder is at least the modulus, so 'constrained to be equal to self * other % modulus' does not hold.", "quantifier": "exists operands and a satisfying assignment", "why_tests_cant": "Only a malicious witness shows it.", "anchors": ["src/mp/bignat.rs: BigNat::mult_mod, red_mod, assert_product_mod"]}
{"id": "C36", "title": "red_mod and assert_product_mod enforce the division identity", "statement": "Satisfied constraints imply self = q*m + r for red_mod, and self*other = q*m + r for assert_product_mod, over the integers with a range-checked q, under the no-overflow condition.", "quantifier": "all operands and satisfying assignments", "why_tests_cant": "All values and assignments.", "anchors": ["src/mp/bignat.rs: BigNat::red_mod, assert_product_mod"]}
{"id": "C37", "title": "divides enforces divisibility", "statement": "Satisfied constraints of divides imply that self divides other over the integers, under the no-overflow condition; a non-divisible honest input returns an error and not a proof.", "quantifier": "all operands and satisfying assignments", "why_tests_cant": "All assignments.", "anchors": ["src/mp/bignat.rs: BigNat::divides"]}
{"id": "C38", "title": "min does not enforce the minimum", "statement": "BigNat::min is unsound: for all operands with limbs in range there is a satisfying assignment returning the first one and one returning the second one, whichever is smaller. The honest run returns the smaller one.", "quantifier": "all operands; all honest runs", "why_tests_cant": "Only a malicious witness shows it.", "anchors": ["src/mp/bignat.rs: BigNat::min, sub", "src/util/gadget.rs: Gadget::switch"]}
{"id": "C39", "title": "n_bits bounds the bit length of carried numbers only", "statement": "n_bits() is an upper bound of the bit length of every number whose max_word is below 2^limb_width; for uncarried numbers (larger max_word) it can be smaller than the real bit length.", "quantifier": "all big naturals; exists a counterexample for uncarried ones", "why_tests_cant": "All values.", "anchors": ["src/mp/bignat.rs: BigNat::n_bits, mult_mod, red_mod"]}
{"id": "C40", "title": "with_n_limbs and one", "statement": "with_n_limbs(k) preserves the value and pads with zero limbs when k is not smaller and panics when k is smaller; one() represents 1.", "quantifier": "all big naturals and k", "why_tests_cant": "Unbounded.", "anchors": ["src/mp/bignat.rs: BigNat::with_n_limbs, one"]}
{"id": "C41", "title": "mux selects", "statement": "In every satisfying assignment with a boolean selector, mux returns limbs equal to those of i0 (selector 0) or i1 (selector 1), padding the shorter operand with zero limbs; different widths give an error.", "quantifier": "all operands, selectors and satisfying assignments", "why_tests_cant": "All assignments.", "anchors": ["src/mp/bignat.rs: BigNat as Gadget::mux", "src/util/gadget.rs: Gadget::mux"]}
{"id": "C42", "title": "mux_tree indexes its inputs", "statement": "mux_tree with k selector bits succeeds only on exactly 2^k inputs, and in every satisfying assignment with boolean selectors its output equals the input whose index is the number spelled by the selector bits, most significant first.", "quantifier": "trees of every depth k, all inputs and selectors", "why_tests_cant": "Unbounded depth.", "anchors": ["src/util/gadget.rs: Gadget::mux_tree"]}
{"id": "C43", "title": "switch swaps or not", "statement": "In every satisfying assignment with a boolean selector, switch returns (i0,i1) when the selector is 0 and (i1,i0) when it is 1.", "quantifier": "all operands, selectors, assignments", "why_tests_cant": "All assignments.", "anchors": ["src/util/gadget.rs: Gadget::switch"]}
{"id": "C44", "title": "assert_equal, inputize and as_nums tie wires", "statement": "assert_equal is satisfied iff all wires agree (error on different counts); inputize creates one public input per wire equal to it in every satisfying assignment; as_nums returns one allocated number per wire equal to it.", "quantifier": "all gadgets with any number of wires and all assignments", "why_tests_cant": "Any wire count, all assignments.", "anchors": ["src/util/gadget.rs: Gadget::assert_equal, inputize, as_nums", "src/mp/bignat.rs: BigNat::inputize"]}
{"id": "C45", "title": "LazyCell forces at most once", "statement": "Over every history of borrow/release operations the closure is run at most once and every successful borrow returns its result; a borrow while an earlier borrow is still alive panics even though the value is already computed.", "quantifier": "all finite histories of borrows and releases", "why_tests_cant": "Histories of any length.", "anchors": ["src/util/lazy.rs: LazyCell"]}
{"id": "C46", "title": "compute_median_timestamp returns the upper median", "statement": "For every non-empty vector the returned value occurs in it, at most len/2 elements are smaller and fewer than (len+1)/2 are greater; the vector is sorted in place as a permutation of the input; the empty vector panics.", "quantifier": "all vectors of u32 of any length", "why_tests_cant": "All vectors.", "anchors": ["src/btc_validation/median.rs: compute_median_timestamp"]}
{"id": "C47", "title": "less_than is exact up to 126 bits in the honest run", "statement": "For n_bits <= 126 and a, b below 2^(n_bits+1) (field larger than 2^(n_bits+2)) the honest run of less_than returns true iff a < b and satisfies its constraints.", "quantifier": "all a, b, n_bits in that range", "why_tests_cant": "All pairs.", "anchors": ["src/btc_validation/median.rs: less_than"]}
{"id": "C48", "title": "less_than above 126 bits never says yes for in-range operands", "statement": "For 127 <= n_bits the shift constant is one bit too large, so for all a, b below 2^(n_bits+1) the honest result is false, even when a < b; in particular the proof-of-work comparison at 224 bits rejects every hash/target pair.", "quantifier": "all a, b and n_bits >= 127 with 2^(n_bits+3) below the modulus", "why_tests_cant": "Tests only use 32 bits.", "anchors": ["src/btc_validation/median.rs: less_than", "src/btc_validation/header_step.rs: PoW check"]}
{"id": "C49", "title": "leq is exact up to 126 bits in the honest run", "statement": "For n_bits <= 126 and a, b below 2^(n_bits+1)-1 the honest run of leq returns true iff a <= b.", "quantifier": "all a, b, n_bits in range", "why_tests_cant": "All pairs.", "anchors": ["src/btc_validation/median.rs: leq"]}
{"id": "C50", "title": "less_than and leq are not enforced by the circuit", "statement": "For all operand values and either boolean there is an assignment satisfying every constraint of less_than (and of leq) in which the returned bit is that boolean: the circuit does not relate the result to the operands.", "quantifier": "all operand values and both results", "why_tests_cant": "Only malicious witnesses show it; it is a statement about all operand values.", "anchors": ["src/btc_validation/median.rs: less_than, leq"]}
{"id": "C51", "title": "verify_median_timestamp accepts exactly the values with a minority above", "statement": "For every vector of at most 11 timestamps the honest result of verify_median_timestamp is true iff fewer than half of the timestamps are strictly greater than the claimed median; it always accepts the value returned by compute_median_timestamp, and it also accepts values larger than the true median (for instance u32::MAX).", "quantifier": "all vectors up to length 11 and all claimed medians (general formula for every length below 2^31)", "why_tests_cant": "All vectors and claims; the test has one.", "anchors": ["src/btc_validation/median.rs: verify_median_timestamp"]}
{"id": "C52", "title": "calculate_difficulty_update computes floor(prev*t/1209600)", "statement": "When 302400 < t < 4838400 and the quotient is below 2^256, the honest run returns the number floor(prev*t/1209600) and satisfies its constraints; for every other t (both boundaries included) it panics. In an arbitrary satisfying assignment the result is only known to be a quotient of prev*t by some divisor below 2^128: the divisor is a private witness, so for every divisor d the quotient by d satisfies the same constraints.", "quantifier": "all previous targets and all time spans; all satisfying assignments; all divisors", "why_tests_cant": "All targets and spans.", "anchors": ["src/btc_validation/difficulty_update.rs: calculate_difficulty_update"]}
{"id": "C53", "title": "verify_difficulty_update accepts exactly the floor quotient in the honest run", "statement": "In the honest run, for 302400 < t < 4838400, the constraints of verify_difficulty_update are satisfied iff current = floor(prev*t/1209600); every other span panics. Since both targets, the span and the divisor are private witnesses, the constraints of every successful run are satisfiable, including runs on a wrong update.", "quantifier": "all 256-bit targets and all spans; all satisfying assignments", "why_tests_cant": "All targets, spans and assignments.", "anchors": ["src/btc_validation/difficulty_update.rs: verify_difficulty_update"]}
{"id": "C54", "title": "verify_current_hash (module not compiled in)", "statement": "With the missing namespace arguments supplied, the honest result of verify_current_hash is true iff hash < target whenever the target halves exceed the hash halves by at most 2^127; a positive answer is always right; when the upper half of the target exceeds that of the hash by more than 2^127 the answer is false although hash < target; the answer is given exactly for every pair. The constraints enforce none of it: with hash and target in their wires, either answer satisfies them.", "quantifier": "all 128-bit halves", "why_tests_cant": "All pairs.", "anchors": ["src/btc_validation/hash_target.rs: verify_current_hash"]}
{"id": "C55", "title": "check_prev_hash (module not compiled in) compares double SHA-256 on the zipped prefix", "statement": "In the honest run the constraints of check_prev_hash are satisfied iff the bits of prev_hash equal the corresponding bits of SHA256(SHA256(block)), for min(64*len, 256) bits: an empty prev_hash is accepted with any block. Block and hash are private witnesses, so the constraints of every run are satisfiable, including runs on a wrong hash.", "quantifier": "all blocks and hashes of any length, all satisfying assignments", "why_tests_cant": "All inputs.", "anchors": ["src/btc_validation/prev_block_hash.rs: check_prev_hash"]}
{"id": "C56", "title": "synthesize never returns", "statement": "For every header, every input state, in both witness-generation and shape-extraction mode and with or without overflow checks, BlockHeader::synthesize panics: no step proof can ever be produced.", "quantifier": "all headers, all z, all modes", "why_tests_cant": "All inputs; the only driver is an example binary that is never run by tests.", "anchors": ["src/btc_validation/header_step.rs: BlockHeader::synthesize"]}
{"id": "C57", "title": "Shape extraction panics at the first assertion", "statement": "In shape mode (as PublicParams::setup uses) synthesize panics for every ten-word header and every non-empty z at the previous-hash assertion, after emitting exactly the 262 constraints of the previous-hash comparison.", "quantifier": "all headers and z", "why_tests_cant": "All inputs.", "anchors": ["src/btc_validation/header_step.rs: BlockHeader::synthesize"]}
{"id": "C58", "title": "Previous-hash check compares the right bytes", "statement": "The first check of synthesize passes in the honest run iff z[0] equals, in the field, the little-endian 256-bit integer of bytes 4..36 of the 80-byte header, for every header whose previous-hash field is below 2^255. When the top bit of that field is set the code evaluates a 128-bit shift of a u128: a panic with overflow checks, a wrong power of two without them.", "quantifier": "all headers and z", "why_tests_cant": "All headers.", "anchors": ["src/btc_validation/header_step.rs: prev hash check"]}
{"id": "C59", "title": "No target is decoded correctly from nBits", "statement": "The compact target of a header is decoded wrongly for every header with a non-zero target (modulo the field). With overflow checks the decoding panics unless the two low-order nBits bytes are 0 and the exponent is 3..31, and then yields 0; without checks it yields 0 for every exponent from 16 on, which includes the repository's example block 123456; in closed form it is 0 outside exponents 3..15 and whenever bits 3 to 5 of nBits are not all set, and otherwise eight bits of the byte-swapped nBits at a position depending on its lowest byte.", "quantifier": "all ten-word headers, both overflow profiles", "why_tests_cant": "Ranges over all headers and both build profiles.", "anchors": ["src/btc_validation/header_step.rs: target computation"]}
{"id": "C60", "title": "No timestamp is decoded correctly", "statement": "The timestamp of a header is decoded wrongly for every header with a non-zero timestamp. With overflow checks the decoding panics unless the timestamp is a multiple of 2^24, and then yields 2^24 times it; without checks it yields the high-order byte shifted left by 48 bits.", "quantifier": "all ten-word headers, both overflow profiles", "why_tests_cant": "Ranges over all headers and both build profiles.", "anchors": ["src/btc_validation/header_step.rs: n_time decoding"]}
{"id": "C61", "title": "The work constraint requires exact division", "statement": "In the honest run the block work is the low 64 bits of floor(max_target / target) and the constraint target * work = max_target holds iff the field product equals max_target; for a quotient below 2^64 that is exactly when the target divides max_target; a target that is 0 or above max_target panics. The maximum target is itself an unconstrained witness, so the constraints accept every claimed work for every target.", "quantifier": "all targets, all claimed works", "why_tests_cant": "All targets.", "anchors": ["src/btc_validation/header_step.rs: total work"]}
{"id": "C62", "title": "Target-update constraints encode the intended choice", "statement": "In every satisfying assignment of the target-update constraints: if the counter is non-zero, the target equals the previous target; if it is zero, it equals the recomputed target; and the epoch start passed on is the one of the state. In the honest run the constraints hold iff that is so for the recomputed value. The recomputed target is not tied to the computation by any constraint: with counter 0 every target can be made to satisfy them. With overflow checks the stage panics for every exponent byte from 19 on, and in both profiles when the recomputed target is below 2^128.", "quantifier": "all assignments, all targets, both overflow profiles", "why_tests_cant": "All assignments.", "anchors": ["src/btc_validation/header_step.rs: target update constraints"]}
{"id": "C63", "title": "State transition of the outputs if the vector were pre-sized", "statement": "The output stage applied to a vector of 16 entries returns (current hash, timestamps shifted by one with the new one appended, target, unchanged epoch start, counter + 1, total work + block work), its constraints force exactly that and the honest run satisfies them; with the empty vector the code uses, or any with fewer than 16 entries, it panics. Over any chain of steps the counter grows by the number of steps and is never reset to 0, the epoch start never changes, the work is summed and the last eleven timestamps are kept.", "quantifier": "all inputs; by induction every chain of headers", "why_tests_cant": "All histories of steps.", "anchors": ["src/btc_validation/header_step.rs: z_out"]}
{"id": "C64", "title": "Constraint shape does not depend on the witness", "statement": "Any two successful runs of a gadget on inputs with the same wires emit the same constraints in the same order, whatever the witness values and whether or not witnesses are present.", "quantifier": "all pairs of inputs", "why_tests_cant": "A relational property over all pairs of witnesses.", "anchors": ["src/mp/bignat.rs", "src/btc_validation/median.rs", "src/btc_validation/difficulty_update.rs", "src/util/num.rs", "src/mp/poly.rs"]}
{"id": "C65", "title": "Number equality after bit-vector operations", "statement": "Comparing a number with a bit vector ignores earlier truncations of that vector: the run of the comparison on the truncated vector is the run on the original one, so a number equal to the truncated value but not the original is rejected.", "quantifier": "all numbers, bit vectors and truncation lengths", "why_tests_cant": "All pairs of numbers and vectors.", "anchors": ["src/util/bit.rs: Bitvector", "src/util/num.rs: is_equal"]}
{"id": "C66", "title": "Quotient allocated too short", "statement": "When the true quotient does not fit the number of limbs the code allots (computed from the moduli's recorded minimum bits), the honest run of mult_mod and red_mod fails with an error rather than returning a wrong result.", "quantifier": "all operands and moduli", "why_tests_cant": "All operand sizes.", "anchors": ["src/mp/bignat.rs: mult_mod, red_mod"]}
{"id": "C67", "title": "Subtraction is exact only for range-checked results", "statement": "If the limbs returned by sub are within the limb width the result is the integer difference, and the honest run returns it whenever the difference is non-negative. sub itself does not range check: with 64-bit limbs over the Pallas scalar field there is a satisfying assignment for 0 - 1, and generally every pair of operands is accepted, with the limbs of the result being the limb differences in the field.", "quantifier": "all operands", "why_tests_cant": "Concerns dishonest witnesses.", "anchors": ["src/mp/bignat.rs: sub"]}
{"id": "C68", "title": "Regrouped comparison needs its size condition", "statement": "equal_when_carried_regroup does not check that the recorded word bound leaves room for carries: there are parameters and a satisfying assignment in which two different integers are accepted as equal.", "quantifier": "existence of a counterexample", "why_tests_cant": "Concerns dishonest witnesses.", "anchors": ["src/mp/bignat.rs: equal_when_carried_regroup"]}
{"id": "C69", "title": "verify_median_timestamp is not enforced by the circuit", "statement": "For every vector of timestamps and every claimed median, either result of verify_median_timestamp satisfies all constraints with the public inputs and all but the last six auxiliary variables left at their honest values: a prover can have any median accepted or rejected.", "quantifier": "all vectors of fewer than 2^32 u32 timestamps, all claimed medians, both results", "why_tests_cant": "Only a dishonest assignment shows it, and it must be shown for every input.", "anchors": ["src/btc_validation/median.rs: verify_median_timestamp, leq"]}
{"id": "C70", "title": "verify_median_timestamp cannot be synthesised without witnesses", "statement": "Synthesis without witness values (shape generation, as used for parameter setup) panics exactly when the vector of timestamps is not empty, because the equality result is unwrapped outside of an allocation closure.", "quantifier": "all vectors and claimed medians", "why_tests_cant": "Tests synthesise with a witness-bearing constraint system only.", "anchors": ["src/btc_validation/median.rs: verify_median_timestamp"]}
{"id": "C71", "title": "less_than and leq panic on widths at or above the field size", "statement": "If n_bits is at least the bit length of the field, the honest run of less_than and of leq panics for all operands.", "quantifier": "all operands, all n_bits >= NUM_BITS", "why_tests_cant": "Unbounded set of widths and operands.", "anchors": ["src/btc_validation/median.rs: less_than, leq"]}
{"id": "C72", "title": "The difficulty functions panic without witnesses", "statement": "In shape-extraction mode (no witness values) calculate_difficulty_update and verify_difficulty_update panic for every argument, so they cannot be part of a circuit whose shape is extracted.", "quantifier": "all arguments and constraint-system states", "why_tests_cant": "A test extracts the shape for one set of arguments; the claim is that no arguments work.", "anchors": ["src/btc_validation/difficulty_update.rs: calculate_difficulty_update", "src/btc_validation/difficulty_update.rs: verify_difficulty_update"]}
{"id": "C73", "title": "Pre-sizing the output vector does not make the step work", "statement": "Even if the output vector had the right length, the honest run of synthesize panics for every ten-word header, every state and both overflow profiles, at the latest in the timestamp check, which refuses every header in every state.", "quantifier": "all headers, states, initial output vectors and profiles", "why_tests_cant": "All inputs; no test drives the step.", "anchors": ["src/btc_validation/header_step.rs: BlockHeader::synthesize"]}
{"id": "C74", "title": "The proof-of-work check rejects every valid block", "statement": "For a hash below 2^255 the second check of synthesize succeeds in the honest run iff (hash + 2^226 - decoded target) mod p < 2^225; consequently it panics for every header whose double SHA-256, read as a little-endian integer, is below p - 2^226 and 2^255, which includes every block with valid proof of work. For a hash of 2^255 or more it panics when overflow checks are on, and without them the same condition holds with hash - 2^255 + 2^127 in place of the hash. It also panics whenever no target is decoded. With overflow checks the headers that pass are exactly those with nBits a multiple of 2^16, exponent 3 to 31, hash below 2^255 and hash mod p between p - 2^226 and p - 2^225.", "quantifier": "all ten-word headers", "why_tests_cant": "Needs a statement about the hash of every header.", "anchors": ["src/btc_validation/header_step.rs: target check", "src/btc_validation/median.rs: less_than"]}
{"id": "C75", "title": "Header data are not bound by the constraints", "statement": "The constraints emitted by the previous-hash check and by the proof-of-work check do not tie their results to the header: for every successful run and every choice of field elements there is a satisfying assignment, with the earlier wires unchanged, in which the previous hash, respectively the target and the block hash, have the chosen values.", "quantifier": "all headers, all states, all choices of values", "why_tests_cant": "Concerns dishonest witnesses.", "anchors": ["src/btc_validation/header_step.rs: prev hash check, target check"]}
{"id": "C76", "title": "The built-in initial state does not fit the step", "statement": "initial_z_i_scalars returns sixteen values: the previous hash and the decoded target of block 123456, eleven increasing timestamps, the start time of the epoch, the counter 480 and no work. The step uses the start time of the epoch as if it were its duration: whenever that state entry is outside (302400, 4838400), hence for every date after February 1970 and for the built-in state, the honest target update panics.", "quantifier": "For every field of at least 208 bits, every header, target and state with such an entry.", "why_tests_cant": "The example driver takes minutes and exercises one state; that no header and no realistic start time can succeed is a statement about all of them.", "anchors": ["src/btc_validation/header_step.rs: initial_z_i_scalars, synthesize", "src/btc_validation/difficulty_update.rs: calculate_difficulty_update"]}
{"id": "C77", "title": "Comparison, trait allocation and display of numbers", "statement": "== on BigNat holds exactly when the recorded values and the parameters agree; it says nothing about wires: without witnesses all numbers of one size are ==, and with witnesses numbers with different limbs can be. Allocation through the Gadget trait keeps value, width and limb count and resets the minimum-bits and word bounds. Two numbers are displayed alike exactly when their recorded values agree; a bit vector is displayed as its recorded bits, low-order bit first, or as its length when none are recorded.", "quantifier": "For all numbers, parameters, constraint-system states and fields.", "why_tests_cant": "Equality of the witness values is what tests compare; the gap to equality of constrained wires appears only for crafted limbs or missing witnesses.", "anchors": ["src/mp/bignat.rs: PartialEq for BigNat, Gadget for BigNat (alloc), Display for BigNat", "src/util/bit.rs: Display for Bitvector"]}
{"id": "C78", "title": "No gadget uses a name twice", "statement": "Called in a namespace below which nothing has been named yet, every gadget runs in bellpepper's TestConstraintSystem exactly as if names did not matter: none of its variables, constraints and namespaces repeats a path or contains a '/', so no assertion on names fires. On success the current namespace is the one it was called in and only paths below it have been added, so any number of calls in distinct namespaces is fine again; entering the same namespace twice panics.", "quantifier": "For every field, every gadget of the library and of the block validation, all operands, limb counts, widths and witnesses, and every constraint-system state whose current namespace is fresh.", "why_tests_cant": "A clash depends on limb and bit counts (two loops share the text \"equal {i}\", numbers are embedded in names of varying length) and appears only at the sizes that hit it.", "anchors": ["src/mp/bignat.rs: equal, is_equal, equal_when_carried, mult, mult_mod", "src/util/num.rs: fits_in_bits, decompose", "src/mp/bignat.rs: mux (Gadget), mux_tree, as_nums", "src/btc_validation/median.rs: verify_median_timestamp", "src/btc_validation/header_step.rs: synthesize"]}
{"id": "C79", "title": "Carry widths computed in floating point", "statement": "The bit width that a carried comparison allots to its carries, computed with f64 operations, is the exact ceil(log2(2*max_word)) - limb_width at powers of two and from 2^k + 2^(k-43) on, is never too large, and is one bit short for words from 2^k + 1 to 2^k + 2^(k-53). Comparisons, products and modular products of numbers with full limbs always get the exact width. After shift(2) of a number with a full 64-bit limb the width is one bit short and the comparison rejects an equal number.", "quantifier": "For every max_word below 2^1020 and every limb width, every field, and every f64 log2 that returns a neighbour of the true logarithm; full-limb operations up to 2^42 limbs.", "why_tests_cant": "The rounding error shows only for words within 2^-43 of a power of two, and depends on the platform's log2.", "anchors": ["src/mp/bignat.rs: equal_when_carried, equal_when_carried_regroup, shift, mult"]}
{"id": "C80", "title": "Numbers moved between the two number types", "statement": "Converting a number to an allocated number gives, in every satisfying assignment, a variable with the same value; the honest conversion always succeeds and records the value; no assignment of the earlier variables is excluded. Without a recorded value the prover gets AssignmentMissing. Allocating a number records exactly the value of the closure, passes its error on, and constrains nothing; the conversion back keeps the value and the wire.", "quantifier": "For every field, every number (any linear combination), every constraint-system state and every assignment.", "why_tests_cant": "A test fixes one number and the honest value; whether a cheating prover could give the new variable another value concerns all assignments.", "anchors": ["src/util/num.rs: alloc, as_sapling_allocated_num, From<AllocatedNum>"]}
{"id": "C81", "title": "Circuit size is a fixed function of the sizes", "statement": "How many inputs, auxiliary variables and constraints an operation adds depends only on the number of limbs, the limb width and the recorded word bounds of its arguments, with or without witnesses: range checks, decompositions, equality, carried and regrouped comparison, products, division, subtraction, modular products, reduction, selection, minimum, comparisons of field elements and the median check (15n+21 variables and 15n+16 constraints for n timestamps). less_than and leq have 6 variables and 6 constraints whatever the number of bits. Over the Pallas scalar field the target calculation adds 1250 variables and 1255 constraints, the target check 1458 and 1465.", "quantifier": "For every field, every argument of any size, every constraint-system state, every successful run, with and without witnesses.", "why_tests_cant": "A test counts the constraints of one size and one witness; that the count never depends on a value and follows one formula concerns all sizes and values.", "anchors": ["src/mp/bignat.rs: equal, is_equal, equal_when_carried, equal_when_carried_regroup, mult, mult_mod, red_mod, divides, sub, min, assert_well_formed, decompose, from_num", "src/util/num.rs: fits_in_bits, decompose", "src/mp/bignat.rs: mux (Gadget), mux_tree, switch", "src/btc_validation/median.rs: verify_median_timestamp", "src/btc_validation/difficulty_update.rs: calculate_difficulty_update, verify_difficulty_update"]}
{"id": "C82", "title": "A proving run on wrong values is rejected by the constraints, not by a crash", "statement": "Run with witnesses, each of these checks always finishes normally on values of the right shape, and the finished circuit is satisfied by its own witness exactly if the checked statement is true: a range check or bit decomposition (value below 2^k), the check that limbs are in range, the carried and the regrouped comparison (equal integers and zero excess limbs), the check of a claimed product, and the check of a claimed remainder (equal to the true remainder, the recorded quotient being the true one). The carried comparison finishes normally even outside its soundness conditions.", "quantifier": "For every field, every state satisfied so far, all argument values, right or wrong, under the stated size conditions only.", "why_tests_cant": "A test tries a few right and a few wrong values; that no value whatever makes witness generation stop or makes the verdict wrong concerns all of them.", "anchors": ["src/util/num.rs: fits_in_bits, decompose", "src/mp/bignat.rs: assert_well_formed, equal_when_carried, equal_when_carried_regroup, verify_mult, assert_product_mod"]}
{"id": "C83", "title": "The project's own test circuits give the right verdict on every input", "statement": "Each circuit the project tests with a few literals, run as its tests run it (checked names, then asking whether the finished circuit is satisfied), gives the mathematically right verdict on every input of the stated sizes: the bit decomposition circuit is satisfied exactly by numbers whose residue fits the bits (a negative number panics), the big number decomposition by every number that fits, the randomised decomposition test passes on every number and discards exactly the widths outside 4 to 200, the digit comparison is satisfied exactly if the two digit lists denote one integer (lists of the wrong length are an error), the modular multiplication exactly if the claimed quotient and remainder are the true ones and, where asked, the modulus has its top bit set, and the polynomial product by all coefficient lists of which one at least is nonempty (two empty lists panic). Every literal verdict in those tests follows over the test field, with the carry width computed in floating point by any faithful logarithm.", "quantifier": "For all numbers, digit lists, limb counts and widths within the stated size conditions, over every field; the literal tests over the test field for every faithful logarithm.", "why_tests_cant": "They are the tests: each tries one value, and the randomised one a sample.", "anchors": ["src/mp/bignat.rs: tests Carrier, MultMod, NumberBitDecomp, BigNatBitDecomp, big_nat_can_decompose", "src/mp/poly.rs: tests PolynomialMultiplier", "src/util/test_helpers.rs: circuit_tests"]}
{"id": "C84", "title": "The remaining unit tests assert what holds on every input", "statement": "The checks made by the unit tests of the median, difficulty, target and previous-hash functions, run as the tests run them (checked names, dropped errors, unwrapped values), have the mathematically right outcome on every input in range: the median of up to 23 timestamps is accepted, equality, less-than and less-or-equal of two allocated numbers report the truth, the range test is satisfied exactly by numbers in range, the difficulty test exactly by the floor quotient, the computed target has the base 2^64 digits of the floor quotient, the target comparison reports the truth for halves at most 2^127 apart, and the previous-hash test is satisfied exactly if the hash agrees with the double SHA-256. Every literal assertion of these tests holds over the test field, with carry widths computed in floating point by any faithful logarithm.", "quantifier": "For all inputs in the stated ranges over every field that is large enough; the literal tests over the test field for every faithful logarithm.", "why_tests_cant": "They are the tests: each tries one input.", "anchors": ["src/util/convert.rs: tests", "src/btc_validation/median.rs: tests", "src/btc_validation/difficulty_update.rs: tests", "src/btc_validation/hash_target.rs: tests", "src/btc_validation/prev_block_hash.rs: tests"]}
{"id": "C85", "title": "Exact verdict of products and divisions, including right answers that are rejected", "statement": "With the word bounds within the field: an honest check of a claimed product is satisfied exactly if the claimed value is the product and every limb without a counterpart on the other side is zero; an honest multiplication returns the product and is satisfied exactly if it fits the merged limbs of the shorter side; an honest modular product or reduction returns the true quotient and remainder and is satisfied exactly if the limbs of quotient times modulus and of the remainder beyond the common limbs are zero, so a right answer with a longer quotient is rejected; the check of a claimed remainder is satisfied exactly by the true remainder under the same condition. For a prover free to choose, the accepted quotients and remainders (and the accepted pairs of divides) are exactly those in range that satisfy the division identity and leave no such excess.", "quantifier": "For all operands, moduli, limb counts and widths within the stated size conditions, over every field; all completions of the witness for the prover statements.", "why_tests_cant": "Acceptance depends on how the limb counts of the two sides fall into merged groups; tests use one shape and small quotients.", "anchors": ["src/mp/bignat.rs: verify_mult, mult, mult_mod, assert_product_mod, red_mod, divides, equal_when_carried_regroup"]}
{"id": "C86", "title": "Which recomputed targets calculate_difficulty_update accepts, exactly", "statement": "For every previous target and every span strictly between 302400 and 4838400, the honest calculate_difficulty_update returns floor(prev*t/1209600) and its constraints hold if and only if that quotient is below 2^256; over the Pallas scalar field this is always so (the honest run always succeeds), over the project's test field it fails for the largest targets. The values a prover can give the result are exactly: any q below 2^256 with prev'*t = q*d + r for some prev' congruent to prev and below 2^256, some d below 2^128 and some r below 2^64; and, when prev'*t itself is below 2^64, every q below 2^320 (divisor zero). The target-update stage is satisfied by the honest run exactly when the quotient is below 2^256 and the target is the previous one (counter non-zero) or the recomputed one (counter zero).", "quantifier": "all previous targets, all spans, all satisfying assignments, all claimed results; both fields, every faithful log2", "why_tests_cant": "An exact characterisation of accepted values over a 255-bit field.", "anchors": ["src/btc_validation/difficulty_update.rs: calculate_difficulty_update, verify_difficulty_update", "src/btc_validation/header_step.rs: target update constraints"]}
{"id": "C87", "title": "The example program never gets past parameter setup", "statement": "examples/validate_header.rs prints \"Producing public parameters...\" and panics, whatever Nova does before and after it synthesizes the step circuit: PublicParams::setup panics for every header. With parameters from elsewhere it would panic at RecursiveSNARK::new for every list of blocks, and prove_step would panic from every proof.", "quantifier": "all behaviours of Nova around the step circuit, all headers, all block lists, both profiles, every field", "why_tests_cant": "The example is not a test, and a run shows one Nova version and one block only.", "anchors": ["examples/validate_header.rs: main", "src/btc_validation/header_step.rs: BlockHeader::synthesize, new_blocks, initial_z_i_scalars"]}
{"id": "C88", "title": "The hash in the circuits is the SHA-256 of FIPS 180-4, applied twice", "statement": "The hash function to which check_prev_hash and the header step tie their output bits is, on messages of every length, the one FIPS 180-4 defines: constants from the fractional parts of square and cube roots of the first primes, minimal padding with the 64-bit length, message schedule, 64 rounds, chaining. Hence the honest check_prev_hash with a hash of four words is satisfied exactly when the words are the double SHA-256 of the block, bytes in order, high-order bit first.", "quantifier": "all messages of any length, all blocks, all four-word hashes, every prime field", "why_tests_cant": "Known-answer tests try a few messages; padding boundaries, rounds and constants are fixed for all messages here.", "anchors": ["src/btc_validation/prev_block_hash.rs: check_prev_hash", "src/btc_validation/header_step.rs: BlockHeader::synthesize (sha256)"]}
{"id": "C89", "title": "The constraints of the SHA-256 gadget force and admit exactly the digest", "statement": "The constraints that sha256::sha256 adds for check_prev_hash and the header step determine its outputs: in every assignment that satisfies them, bit inputs with values m give output bits SHA-256(m), whatever witness was used, constant inputs included. Conversely the honest prover never fails on a whole number of bytes and its outputs record and carry the digest, every assignment satisfying the earlier constraints extends to the gadget, and parameter generation panics exactly on inputs that are not whole bytes.", "quantifier": "all messages of whole bytes and any length, all mixes of allocated, negated and constant input bits, all states, all assignments, every prime field of at least 64 bits", "why_tests_cant": "Tests compare the honest witness with known digests; they cannot exclude a dishonest assignment (unconstrained carry, packed sums that wrap) nor cover all messages.", "anchors": ["src/btc_validation/prev_block_hash.rs: check_prev_hash (sha256)", "src/btc_validation/header_step.rs: BlockHeader::synthesize (sha256)"]}
{"id": "C90", "title": "The hashing circuits keep their verdicts with every constraint of the SHA-256 gadget", "statement": "With the full constraints of the SHA-256 gadget in place, check_prev_hash is satisfied by the honest prover exactly when the hash words agree with the double SHA-256 of the block words on the shorter length (with four words: exactly the FIPS 180-4 double digest). In every satisfying assignment the bits held by the hash variables agree with the double SHA-256 of the bits held by the block variables. Both remain free: any run can be satisfied whatever was checked. The proof-of-work stage of the header step succeeds under the same exact condition (hashes of 2^255 and above included), still rejects every header with valid proof of work, still leaves target and hash free, and the step still never returns.", "quantifier": "all blocks, hashes, headers, states and assignments, every prime field of at least 64 bits (228 bits for the proof-of-work condition)", "why_tests_cant": "Tests run a few honest headers; they cannot show that no assignment of the roughly 76,000 hash variables changes the verdict.", "anchors": ["src/btc_validation/prev_block_hash.rs: check_prev_hash", "src/btc_validation/header_step.rs: BlockHeader::synthesize"]}
{"id": "C91", "title": "The hashing circuits are the same circuit for parameters and proof, with every constraint of the SHA-256 gadget", "statement": "With the full constraints of the SHA-256 gadget in place, the hash gadget, check_prev_hash and the proof-of-work stage of the header step lay out the same variables, constraints and names whatever the block, hash or header contains and whether or not witnesses are generated; only the numbers of words matter. Parameter generation for check_prev_hash never fails. No two names collide in a TestConstraintSystem, in the hash gadget, in check_prev_hash and in the whole step.", "quantifier": "all blocks, hashes, headers and input bits, all states, setup and proving runs, every prime field of at least 64 bits", "why_tests_cant": "A proof only verifies if its circuit equals the one of the parameters; tests compare a few inputs and never inspect tens of thousands of constraints for equality.", "anchors": ["src/btc_validation/prev_block_hash.rs: check_prev_hash", "src/btc_validation/header_step.rs: BlockHeader::synthesize"]}
{"id": "C92", "title": "Exact size of the hashing circuits", "statement": "Over a field of 255 bits such as the Pallas scalar field, hashing an 80-byte header costs exactly 51140 variables and 51192 constraints, hashing its digest again 25218 and 25244, check_prev_hash on ten and four words 77254 and 77588, and the proof-of-work stage of the header step 77006 and 77082, for every value of the inputs, in setup and in proving, with no public input. The previous-hash, timestamp and work stages cost 261 and 262, 194 and 187, 2 and 1 over every field.", "quantifier": "all blocks, hashes, headers, input wires and states, all successful runs", "why_tests_cant": "A count on one run does not exclude that constant inputs or particular values change the number of constraints; a prover and a verifier with different sizes cannot agree.", "anchors": ["src/btc_validation/prev_block_hash.rs: check_prev_hash", "src/btc_validation/header_step.rs: BlockHeader::synthesize"]}
{"id": "C93", "title": "The validation functions never return a SynthesisError", "statement": "less_than, leq, verify_median_timestamp, verify_current_hash, verify_difficulty_update, calculate_difficulty_update, check_prev_hash and the synthesize method of the header step never return an Err, for any input, in setup or in proving: they succeed or they panic, although their types declare a Result and the gadgets they call do return errors. A caller cannot recover from a bad header by matching on the error.", "quantifier": "all inputs, with or without values, all fields, setup and proving", "why_tests_cant": "A test can show that one bad input panics; that no input at all reaches the declared error case needs every path of every gadget below.", "anchors": ["src/btc_validation/median.rs: less_than, leq, verify_median_timestamp", "src/btc_validation/difficulty_update.rs: verify_difficulty_update, calculate_difficulty_update", "src/btc_validation/hash_target.rs: verify_current_hash", "src/btc_validation/prev_block_hash.rs: check_prev_hash", "src/btc_validation/header_step.rs: synthesize"]}
{"id": "C94", "title": "Taking a BigNat apart into its limbs and putting it together", "statement": "as_limbs returns the wires of the number in order, each with the value of its limb (or without values in setup), and panics when fewer values than limbs are recorded. from_limbs on the result gives back wires, limb values and value, but resets the recorded bounds to the limb width, so that for a number with larger limbs, such as one returned by shift, the bound recorded afterwards is false.", "quantifier": "all numbers, limb counts, widths, fields and values", "why_tests_cant": "The method has no test; agreement of every value with its wire for all limb counts is a universal statement.", "anchors": ["src/mp/bignat.rs: BigNat::as_limbs, BigNat::from_limbs"]}
{"id": "C95", "title": "The recomputed target in closed form", "statement": "At the start of an epoch the header step compares the target of the header with a value computed from the quotient q = previous target * span / two weeks. That value is given in closed form for every q and every exponent byte in both cargo profiles: the two low 64-bit words of q are added to each other instead of concatenated, word 2 disappears when the shift exceeds 64, word 3 always, and the shift is taken modulo 128 without overflow checks; with them every exponent byte outside 3..18 panics, and q below 2^128 panics in both. Consequently the target Bitcoin prescribes (q cut to its three leading bytes, its size in the exponent byte) is never accepted with overflow checks, and never for sizes from 25 bytes on without them.", "quantifier": "all previous targets, spans in range, exponent bytes, counters, both profiles", "why_tests_cant": "The test suite never reaches this code; that no quotient at all is handled correctly is a statement over all of them.", "anchors": ["src/btc_validation/header_step.rs: synthesize, stage 5 (target update)"]}
{"id": "C96", "title": "What less_than and leq answer on every pair of operands", "statement": "For all field elements a, b and every width below the bit length of the field (up to 253) the honest run succeeds, and its answer is given exactly. Up to 126 bits less_than says yes if and only if b exceeds a by at least 1 and at most 2^(n+1), or a exceeds b by at least p - 2^(n+1): so out-of-range operands are misjudged in both directions. From 127 to 252 bits the window is off by 2^(n+1): yes needs b - a (modulo p) above 2^(n+1). One bit below the field's bit length both functions say yes to every pair. From 254 bits on both panic in a build with overflow checks, in every field.", "quantifier": "all operands, widths, fields, both profiles", "why_tests_cant": "The tests compare three pairs at one width; the answer depends on all operands modulo the field order.", "anchors": ["src/btc_validation/median.rs: less_than, leq"]}
{"id": "C97", "title": "Operands outside the domain: negative numbers, borrows, zero divisors, results too large, mixed widths", "statement": "nat_to_limbs and alloc_from_nat accept a negative number and put its residue in the limbs while the recorded value stays negative. An honest subtraction of a larger number therefore does not fail: it returns a negative recorded value and leaves the circuit unsatisfied, which is satisfied exactly if the second operand is at most the first. A difference, product or quotient too large for its limbs is an error. A zero modulus, and zero dividing zero, panic while proving. Operands of different limb widths are an error before anything is allocated, in setup and in proving.", "quantifier": "all operands and states; all fields", "why_tests_cant": "The tests subtract and divide a few in-range pairs only.", "anchors": ["src/mp/bignat.rs: nat_to_limbs, alloc_from_nat, sub, mult, mult_mod, red_mod, assert_product_mod, divides, verify_mult"]}
{"id": "C98", "title": "Exactly which values the comparison, selection, product and bit-check gadgets admit for any prover", "statement": "Given any values on the wires of the operands, not only those of an honest run, the equality test of two numbers or of two big naturals, the conversion of limbs to numbers, the product of two polynomials the choice between two big naturals, the switch and the tree of choices can always be completed to a satisfying assignment, with the expected result; no prover is locked out. Splitting into bits can be completed exactly if every limb fits its width, the full-length check exactly if the top limb alone has its top bit set and fits its width, and the minimum-length check exactly if every limb fits its width and the integer has at least the required number of bits.", "quantifier": "all operands, all assignments to the existing wires, setup and proving; all fields", "why_tests_cant": "Tests follow the honest witness; that another prover is neither locked out nor let in is a statement about all assignments.", "anchors": ["src/util/gadget.rs: as_nums, mux_tree, switch", "src/mp/bignat.rs: equals, is_equal, mux, decompose, enforce_full_bits, enforce_min_bits", "src/util/num.rs: decompose", "src/mp/poly.rs: alloc_product"]}
{"id": "C99", "title": "Any arithmetic written with the big-number operations computes the integer it denotes", "statement": "Take any expression, however deep, built from inputs by sum, product, difference (range-checked), adding and multiplying by a constant, concatenation and choice by a condition, and call one operation per node. If the sizes read off the expression stay within the field, every satisfying assignment gives the result the integer the expression denotes for the integers on the input wires, the result stays within the recorded word bound and has the predicted number of limbs, and no difference in it was negative and no product cut. Conversely the honest prover completes it whenever no difference is negative and every product fits, and without concatenation those are exactly the inputs any prover can complete. Comparing two such expressions enforces that they denote the same integer, and over equally many limbs nothing else.", "quantifier": "all expressions, all inputs, all assignments, setup and proving; all fields and limb widths", "why_tests_cant": "Each test exercises one operation on fresh operands; that the bounds recorded by one operation are what the next one needs, for every nesting, needs induction over expressions.", "anchors": ["src/mp/bignat.rs: add, mult, sub, shift, scale, concat, assert_well_formed, equal_when_carried_regroup", "src/mp/bignat.rs: mux (Gadget)"]}
{"id": "C100", "title": "Chains of modular operations compute the right residue, and square-and-multiply computes powers", "statement": "Fix a modulus and call modular multiplication, addition and reduction in any order, each call free to use the inputs and all earlier results. If the sizes stay within the field, every satisfying assignment gives every result an integer congruent, modulo the integer on the modulus wires, to what the same steps give over the integers with no reduction. If the quotients fit their limbs, the honest prover completes the whole chain with the reduced results, and so can anyone who knows the inputs. In particular raising a reduced number to any power by squaring and multiplying yields that power modulo the modulus, and the room needed does not depend on the exponent.", "quantifier": "all operation sequences of any length, all exponents, all inputs and moduli, all assignments, setup and proving; all fields and limb widths", "why_tests_cant": "A test multiplies once or twice with known numbers; that congruences and bounds carry through chains of any length, for every assignment a dishonest prover may choose, needs induction.", "anchors": ["src/mp/bignat.rs: mult_mod, red_mod, add, enforce_full_bits"]}
{"id": "C101", "title": "No hidden freedom: the wires a gadget adds are determined by its inputs", "statement": "Take a completed call of a gadget and two assignments that satisfy all constraints and agree on the wires that existed before the call. Then they agree, as field elements, on every wire the call allocated. This holds for range checks, bit decompositions, top-bit checks, field elements cut into limbs, public copies, polynomial products, carried comparisons, products, checked differences, choices, switches and trees of choices, conjunctions and disjunctions, exact division, quotients by a nonzero number, modular products and reductions with reduced remainders, and for whole circuits built from them. The outcome of an equality test is determined too, and so are all its wires when the limbs differ pairwise. Where two limbs agree, the inverse allocated by the test is free.", "quantifier": "all pairs of satisfying assignments, all inputs, states, shapes, fields and widths within the field, setup and proving", "why_tests_cant": "A test fixes one assignment; that no second one exists is a statement about all assignments.", "anchors": ["src/mp/bignat.rs: assert_well_formed, decompose, from_num, equal_when_carried_regroup, mult, sub, divides, assert_product_mod, mult_mod, red_mod, enforce_full_bits, enforce_min_bits, is_equal, inputize", "src/util/num.rs: fits_in_bits, decompose, as_sapling_allocated_num", "src/util/gadget.rs: mux, switch, mux_tree, inputize, as_nums", "src/mp/poly.rs: alloc_product"]}
{"id": "C102", "title": "Constraints refer only to wires that exist, and gadgets only add", "statement": "A gadget call adds variables and constraints and changes nothing that was there: values already assigned stay, and an assignment that satisfies the constraints afterwards satisfied those before. If the arguments refer to allocated wires only, every constraint the call adds refers to allocated wires only, also when the call ends in an error or a panic, and so does what it returns. This holds for every gadget of the library, the hash gadget with its real constraints, and the whole step circuit. In such a system satisfaction depends on nothing but the values of the allocated wires up to the modulus, and gadgets whose wires are determined may be chained.", "quantifier": "all arguments over any state, all states, fields and shapes, every outcome of the call, setup and proving", "why_tests_cant": "A test sees the wires of one run; a dangling reference can depend on sizes, on the branch taken or on where a call fails.", "anchors": ["src/mp/bignat.rs: all gadgets", "src/mp/poly.rs: alloc_product, sum", "src/util/num.rs: alloc, fits_in_bits, is_equal, decompose, as_sapling_allocated_num", "src/util/bit.rs: alloc, constrain_value", "src/util/gadget.rs: inputize, as_nums, mux, mux_tree, switch, assert_equal", "src/btc_validation/median.rs: verify_median_timestamp, less_than, leq", "src/btc_validation/difficulty_update.rs: verify_difficulty_update, calculate_difficulty_update", "src/btc_validation/prev_block_hash.rs: check_prev_hash", "src/btc_validation/header_step.rs: synthesize"]}
{"id": "C103", "title": "The bits hashed determine every wire of the hash circuit", "statement": "Two assignments that satisfy the constraints of the SHA-256 gadget and agree on its input bits (which are bits) agree on every wire the gadget allocated and on the digest, for messages of any number of bytes; with C89 every assignment of the input bits has exactly one completion. The same for the hash of the hash, and for the exclusive or, choice and majority of bits. In the previous-hash check the bits of the block determine every wire except those given of the hash beyond 256 bits; and the bits of a four-word hash determine every wire, unless the two assignments contain two different blocks with the same double hash.", "quantifier": "all messages, input wires, states, fields, setup and proving, all pairs of satisfying assignments", "why_tests_cant": "A test tries one assignment; a wire the constraints leave free shows only in another satisfying assignment of tens of thousands of wires.", "anchors": ["src/btc_validation/prev_block_hash.rs: check_prev_hash", "src/btc_validation/header_step.rs: synthesize"]}
{"id": "C104", "title": "Numbers in full 64-bit limbs over the fields in use: exact verdicts without side conditions", "statement": "Over the Pallas scalar field and the field of scalar.rs, with the carry widths computed in floating point, and for numbers in 64-bit limbs (up to 2^40 of them) as allocation makes them: equality can be satisfied exactly if the integers are equal and divisibility exactly if it holds, whatever the sizes; reduction accepts exactly the numbers congruent to the operand and not above it that fit the limbs of the modulus. A product can be satisfied, and then only with the right product, exactly if the operands have an even number of limbs together or the product leaves its top limb empty; modular products and the check of a given remainder accept exactly the quotients and remainders of the identity, under the same parity condition. Honest runs return, hold the right quotient, remainder or product, and satisfy everything in the same cases.", "quantifier": "all numbers and sizes up to 2^40 limbs, all states and assignments, every logarithm within the accuracy of libm, both fields, setup and proving", "why_tests_cant": "The verdict depends on limb counts, merged limbs and a rounded logarithm together; tests use a few sizes, where the refused products of an odd number of limbs look like any other failure.", "anchors": ["src/mp/bignat.rs: equal_when_carried_regroup, mult, mult_mod, red_mod, assert_product_mod, divides", "src/util/scalar.rs: Fr", "examples/validate_header.rs: main"]}
{"id": "C105", "title": "Modular multiplication chains and powers of numbers in full 64-bit limbs need no size condition", "statement": "Over the fields in use, with a modulus and inputs of the same number of 64-bit limbs (up to 2^40): every chain of modular multiplications and reductions is completed by the honest prover with the reduced results; every other prover can complete it from the same inputs, and whatever satisfies it is congruent to the integer computed without reduction. Square-and-multiply therefore computes powers for every exponent, and a result below the modulus is the power modulo the modulus.", "quantifier": "all moduli, inputs, limb counts, chains and exponents, every logarithm within the accuracy of libm, all states and assignments, setup and proving", "why_tests_cant": "Chains have unbounded length and every step has its own rounding, merging and carry conditions; a test runs one chain on one size.", "anchors": ["src/mp/bignat.rs: mult_mod, red_mod"]}
{"id": "C106", "title": "Subtraction followed by a range check of the result is an exact comparison", "statement": "If the caller range-checks the limbs of the number returned by sub, then the circuit can be satisfied from given operands exactly if the subtrahend is not greater than the minuend, and the limbs of the result are then exactly those of the difference. With 64-bit limbs over the fields in use this holds whatever the two sizes; the honest prover completes it in exactly those cases. Without the range check any operands (subtrahend not longer) can be satisfied, with the limb-by-limb field differences as the result.", "quantifier": "all operands, sizes, fields and limb widths with room, all candidate results, all states and assignments, setup and proving", "why_tests_cant": "The claim is over every assignment a prover could choose and over every size combination; tests only run the honest prover on a few numbers.", "anchors": ["src/mp/bignat.rs: sub, assert_well_formed, equal_when_carried_regroup"]}
{"id": "C107", "title": "One comparison at the end makes a chain of modular operations exact for every prover", "statement": "A modular multiplication or reduction on its own only ties its result to the right residue class: a prover may return any representative that fits the limbs. If the caller takes any chain of them (for instance a power by repeated squaring) and, at the very end, subtracts the last result from the modulus less one and range-checks that difference, then the circuit can be satisfied with exactly one set of limbs for the result: those of the least residue of the integer expression. Intermediate results need no check. The honest prover always succeeds.", "quantifier": "all chains, operands, moduli and sizes with 64-bit limbs over the fields in use, all candidate results, all states and assignments, setup and proving", "why_tests_cant": "The claim is over every assignment a prover could choose at every step of a chain of any length; a test only sees the honest one.", "anchors": ["src/mp/bignat.rs: mult_mod, red_mod, sub, assert_well_formed"]}
{"id": "C108", "title": "A modular product with a factor chosen by the prover is satisfiable exactly if the congruence is solvable", "statement": "A caller can allocate an unknown number, range-check it and require with assert_product_mod that its product with a given number leaves a given remainder. Over the fields in use, with 64-bit limbs and an even total limb count, the circuit can then be satisfied exactly if the congruence a*x = r (mod m) has a solution, that is if gcd(a, m) divides r, and the limbs of the unknown are exactly those of its solutions. With r = 1 this tests that a is invertible modulo m and yields exactly its inverses. A prover supplying a value completes the run, and the constraints hold exactly if the value is a solution.", "quantifier": "all numbers, moduli, remainders and sizes (even total), all candidate solutions, all states and assignments, setup and proving", "why_tests_cant": "Unsatisfiability ranges over every value a prover could supply for the unknown, the quotient and the carries.", "anchors": ["src/mp/bignat.rs: assert_product_mod, alloc_from_nat, assert_well_formed"]}
{"id": "C109", "title": "A proper divisor chosen by the prover can be supplied exactly for composite numbers", "statement": "A caller can allocate an unknown number, require at least two bits of it with enforce_min_bits, require with divides that it divides a given number c, and compare it with c - 1 by a range-checked subtraction. Over the fields in use, with 64-bit limbs, the limbs that satisfy the circuit are exactly those of the divisors of c strictly between 1 and c. With half as many limbs for the divisor as for c the circuit can be satisfied exactly if c is not prime. A prover supplying a proper divisor completes the run with every constraint satisfied; one supplying c itself completes the run and fails the constraints.", "quantifier": "all numbers c and sizes, all candidate divisors, all states and assignments, setup and proving", "why_tests_cant": "That a prime cannot pass ranges over every divisor, quotient, bit and carry a prover could supply.", "anchors": ["src/mp/bignat.rs: alloc_from_nat, enforce_min_bits, divides, sub, assert_well_formed"]}
{"id": "C110", "title": "Comparisons by checked subtraction along a list force its order", "statement": "A caller can subtract each number of a list from the next one and range-check the difference. Over the fields in use, with 64-bit limbs, the resulting circuit can be satisfied exactly if the numbers are in ascending order, whatever their number and sizes, and whatever the prover supplies. Then the number in the middle is the one compute_median_timestamp returns for the list (for numbers above u32, its computation on wider integers). An honest prover completes the run with every constraint satisfied on every list in order; if no number has fewer limbs than the one before it, the run also completes on lists out of order, and then fails the constraints.", "quantifier": "all lists of numbers of any length, values and sizes, all states and assignments, setup and proving", "why_tests_cant": "The claim covers lists of every length and every difference and carry a prover could supply; a test fixes one list and the honest values.", "anchors": ["src/mp/bignat.rs: sub, assert_well_formed", "src/btc_validation/median.rs: compute_median_timestamp"]}
{"id": "C111", "title": "A minimum that the circuit enforces", "statement": "The library's min does not enforce the minimum (C38). A caller can allocate a bit, select one of two numbers with mux, and subtract the selected number from both with range-checked differences. Over the fields in use, with 64-bit limbs, the limbs of the selected number that satisfy the circuit are exactly those of the smaller operand, in as many limbs as the longer operand has, for any prover. The honest prover who chooses the smaller operand completes the run with every constraint satisfied. With operands of one size the run completes for either choice and passes exactly if the chosen number is not above the other.", "quantifier": "all pairs of numbers of any values and sizes, all choices, all states and assignments, setup and proving", "why_tests_cant": "That the larger number cannot pass ranges over every bit, difference and carry a prover could supply.", "anchors": ["src/util/bit.rs: alloc", "src/util/gadget.rs: mux", "src/mp/bignat.rs: sub, assert_well_formed"]}
{"id": "C112", "title": "Exactly the entries of a table can be picked at a position the prover chooses", "statement": "A caller can allocate the bits of a position and select an entry of a table with mux_tree. Over every field and for any prover, in every completed call, the limb values the result can have are exactly those of the entries, padded with zeros to the length of the longest entry. If the caller then compares the result with a given number by equal, with 64-bit limbs over the fields in use, the circuit can be satisfied exactly if the number is in the table, whatever the sizes of the number and of the entries. The honest run over a table of 2^k numbers completes for each position and satisfies the constraints exactly if the entry at that position, first bit most significant, is the number.", "quantifier": "all tables of any sizes and entries, all numbers, all position bits, all states and assignments, setup and proving", "why_tests_cant": "That no other number passes ranges over every bit and every intermediate selection a prover could supply, for tables of every depth.", "anchors": ["src/util/gadget.rs: mux_tree", "src/util/bit.rs: alloc", "src/mp/bignat.rs: equal"]}
{"id": "C113", "title": "A sorted copy of a list, and its median, enforced by the circuit", "statement": "The step circuit computes the median of the timestamps outside the circuit, and its check of the median is not enforced (C69). A caller can instead pass the numbers through switches whose bits the prover supplies and compare the results along the list by checked subtraction. Over the fields in use, with 64-bit limbs, the numbers the resulting wires can carry are exactly the given numbers in ascending order, for any prover, any number of numbers and any sizes. So in every satisfying assignment the middle one is the median that compute_median_timestamp returns for the unsorted list, and the whole list is the one it leaves behind (the function takes u32 numbers; for larger ones its computation on wider integers is meant). An honest prover completes the run on every list with every constraint satisfied.", "quantifier": "all lists of numbers of any length, values and sizes, all switch settings, all states and assignments, setup and proving", "why_tests_cant": "That no other list passes ranges over every setting of the switches and every intermediate number, difference and carry a prover could supply, for lists of every length.", "anchors": ["src/util/gadget.rs: switch", "src/util/bit.rs: alloc", "src/mp/bignat.rs: sub, assert_well_formed", "src/btc_validation/median.rs: compute_median_timestamp"]}
{"id": "C114", "title": "Headers reach the step as given, and a valid successor of the built-in state is refused", "statement": "new_blocks makes one header per block, in the order given and with the same words; the default header is eighty zero bytes. The one block of the example program meets Bitcoin's conditions after the built-in initial state: it names the hash in the state, its timestamp is above the median of the eleven in the state, its compact target decodes to the target in the state, and its double SHA-256 is not above that target. synthesize panics on it in every state, with and without witnesses.", "quantifier": "all lists of blocks, every field of at least 208 bits, all states and runs", "why_tests_cant": "Lists of every length, every field and every state of the constraint system; no test drives the step.", "anchors": ["src/btc_validation/header_step.rs: Default, new_blocks, initial_z_i_scalars, synthesize", "examples/validate_header.rs: input"]}
{"id": "C115", "title": "The time stage reads the low 32 bits of the eleven timestamps of the state, and nothing else of it", "statement": "The median and timestamp stage of synthesize behaves the same, in result and in everything it emits, on any two states that have the same entries at positions 1 to 11. For positive timestamps only the low 32 bits count, so a timestamp and the same one plus a multiple of 2^32 are not told apart. If any of the eleven entries is absent, has no value, or is zero, the stage panics before it emits anything, with and without witnesses; so a state whose elements have no values never gets past it.", "quantifier": "all headers, states, fields and constraint systems, with and without witnesses", "why_tests_cant": "Every state of every length with every choice of the entries outside the eleven, and all multiples of 2^32; no test drives the step.", "anchors": ["src/btc_validation/header_step.rs: synthesize"]}

# Design of the formal model of Boost.Random

Source: `/repo` (boostorg/random at the pinned commit), read as text only.
Prover: Coq/Rocq 8.16.1, standard library only.

## 1. Conventions

* Integers are unbounded `Z` (or `N` for bit vectors). Every place where the
  C++ code wraps modulo the width of an unsigned type is written as an explicit
  `mod 2^w`. Signed overflow, out-of-range shifts, out-of-bounds accesses and
  division by zero are undefined behaviour and are a distinct outcome
  (`None` / `UB`) where the function can reach them.
* An engine is a `step : state -> Z * state` function, or - for adaptors and
  distributions - the stream of values drawn from it (`nat -> Z` or a list that
  is consumed from the front). Loops that may run for an unbounded time
  (rejection) are written with explicit fuel or as a function that consumes a
  stream; running out is a distinct outcome.
* A C++ integer type is described by its width and signedness. `uintmax_t` is
  64 bits, `int` 32 bits (the common LP64 ABI).
* Probability statements are counting statements: "uniform" means that the
  number of tuples of engine outputs that lead to each result is the same.
* Text streams are lists of tokens (numbers separated by blanks), except for
  splitmix64 whose extractor works on characters.

Files come in triples: `XxxModel.v` (the code, each definition citing file and
lines), `XxxProofs.v` (lemmas), `XxxProps.v` (the property theorems, closed by
`exact`, with `Print Assumptions` and non-vacuity examples).

## 2. What is modelled and how each property is proved

| Id | Model | Proof idea |
|----|-------|------------|
| C01 | `generate_uniform_int` for integral engines: all four branches, with the recursion for the high part; `subtract`/`add` on signed types | case analysis on branches, invariant `mult <= range/(brange+1)^i` of the inner loop; the branch that returns without adding the minimum is refuted by a witness and excluded by a precise hypothesis in the positive theorem |
| C02 | same | mixed-radix bijection between tuples and numbers; bucket argument for the rejection branch; recursion by induction on the range |
| C03 | same | the inner loop terminates by growth of `mult`; at least one accepted tuple; recursion argument smaller |
| C04 | `uniform_smallint::generate` | division lemma + counting residues |
| C05 | `random_number_generator` | corollary of C01 |
| C06 | `const_mod` (all paths) and `muldivmod` | ring reasoning modulo m; Schrage's bound; Knuth D invariant for the long division; refutation of the general path by a witness |
| C07 | LCG seed/step/read | invariant |
| C08 | LCG discard via pow and inverse | geometric series; hypothesis from number theory; refutation outside it |
| C09 | LCG `seed(x0)` | modular arithmetic |
| C10 | LCG `operator<<`/`>>` on tokens | case analysis |
| C11 | `rand48` | instance of C06 |
| C12 | `invert_euclidian(0)`, inversive engine | invariant of the unrolled Euclid loop |
| C13 | `additive_combine_engine` | modular arithmetic, refutation for m2>m1 |
| C14-C17 | `subtract_with_carry_engine` with ring buffer | refinement to the infinite sequence specification; discard refuted at buffer position 0, equality refuted (carry ignored) |
| C18 | integer `lagged_fibonacci_engine` | refinement of block refill to the sequence |
| C19-C22 | `mersenne_twister_engine` | refinement of `twist` to the sequence; explicit inverse of tempering; state rotation for print/read |
| C23 | `discard`, `discard_many`, `get_characteristic_polynomial`, `as_polynomial`, `reconstruct_state` (`MtJumpModel.v`); the threshold macro is a parameter; a failed assert fails | every bit of a word is a polynomial (in the shift) applied to the sequence of lowest bits, and one polynomial kills that sequence (`MtJumpSpec.v`, `MtJump2Proofs.v`); invariant of the backward loop of `reconstruct_state`: which bits of which words are already right (`MtJump3Proofs.v`); the Berlekamp-like loop computes that polynomial; the product with the reversed bit sequence yields the bits z places later (`MtJump4Proofs.v`). No condition for the three typedefs. Refuted: UIntType wider than w, m = 1, overrun of mod_pow_x |
| C24 | `linear_feedback_shift_engine` | bit-level invariant; refutation for wide word types |
| C25 | `xor_combine_engine` | bit-level bounds; refutations |
| C26 | `independent_bits_engine` | counting; refutation for 3-valued engines |
| C27 | `discard_block_engine` | induction on calls |
| C28 | `shuffle_order_engine` | invariants; refutation of the index formula for full 64-bit engines |
| C29-C30 | `splitmix64` | explicit inverses of the mixing steps; character level parser |
| C31-C32 | `mixmax_engine` (any N for the recurrence, N=17 for seeding) | congruences modulo 2^61-1 with non canonical representatives; refutations for the output range and for counter 17 |
| C33 | `seed_seq::generate` | equality with a separate transcription of the C++ standard algorithm; refutation for n=0 and 64-bit types |
| C34 | `seed_impl.hpp` (`get_one_int`, `seed_one_int`, `fill_array_int`, `seed_array_int`, `fill_array_real`), `generator_seed_seq`, `seed(first,last)` / `seed(seq)` / `seed(value)` of the engines | induction on words, little-endian value as specification; refutation for signed types |
| C35 | `generate_from_int`, `generate_from_real` (exact arithmetic on multiples of 2^-bits), `pow2`, `rand48::generate`, `splitmix64::generate` | the digits form a bit string that is cut into words; invariant of the loop; uniformity by induction over families of states; refutations for the empty range, rand48, splitmix64 |
| C36-C39 | `qrng_base` (all members), `gray_coded_qrng` (all members), `sobol_lattice::resize` with the whole of `sobol_table.hpp`; text at number level, and at character level for 8-bit types | refinement of the state to a position, generic in the derived class; Gray code algebra on bits; loop invariants for the lattice; triangular direction numbers and pigeonhole for the dyadic intervals; table checked by computation; refutations |
| C40-C42 | `discrete_distribution` with integral weights: `integer_alias_table` (all members), `init`, `operator()` (both), `probabilities`, `param`, `operator==` | invariant of the averaging loop; the Vose loop conserves weights (induction over the two work lists); weighted counting of programs; refutations by computation. `real_alias_table` is in C55 |
| C43 | `bernoulli_distribution::operator()` for integral and floating-point engines, with rounding | rounding operator on Q (precision, least exponent, four directions; unbounded above) proved monotone, idempotent and accurate; counting by a threshold; refutations by computation |
| C44 | `generate_one_digit`, `generate_int_float_pair` (both overloads), `uniform_int_float` (`IfpModel.v`): bits of the bucket and the real part, shifts with undefined outcome out of range, rounding after every operation | digit rejection gives a uniform m-bit digit (`gd_uniform`); the program equals a pure one; the first digit splits into independent bits of bucket and real part (`pair_indep`); the real part is exact, hence a multiple of 2^-digits (`pair_run`, `pair_uniform`); the shift by -1 when the last digit is full is refuted and shown to hit every run (`pair_never`). Not modelled: result types narrower than int |
| C45 | `new_uniform_01`, `backward_compatible_uniform_01`, `generate_uniform_real` (both engine kinds, including the overflow branch), `generate_canonical` (both engine kinds) with rounding | weakest preconditions over the draws; monotone rounding; loop invariant for the powers of R+1; refutations by computation |
| C46 | all of `polynomial_ops` and class `polynomial` (PolyModel): digits as N, pointers as array and index, accesses outside an array fail | the binary digits of N as coefficients (PolySpec); a GF(2) ring on N (PolyProofs), frame lemmas for regions of arrays (Poly2), induction over the Karatsuba recursion (Poly3), bit-by-bit arguments for copy/shift/squaring (Poly4), invariant of the block-wise remainder (Poly5), square-and-multiply invariant (Poly6). Refuted: empty operand, overrun of the remainder buffer, modulus of degree 1 |
| C47 | `muldivmod` | Knuth D |
| C48 | printers, readers and `operator==` of `linear_feedback_shift`, `xor_combine`, `discard_block`, `shuffle_order` (token level) | parametric in the base engine |
| C49 | `mixmax_engine::seed_uniquestream`, `apply_bigskip`, `fmodmulM61`, the table `mixmax_skip_N17.ipp` | polynomial arithmetic modulo the characteristic polynomial of the matrix (checked on e_0 by computation, 640 squarings), module homomorphism lemmas |
| C50 | `generate_canonical` (both engine kinds) | loop invariant: all intermediate values are exact while (R+1)^n <= 2^digits; for floating-point engines the sum is bounded by 1 and then divided by 2^eb |
| C51 | all of `faure.hpp` (`FaureModel.v`): prime table and its lower bound, logarithm table, binomial coefficients, `compute_recip`, `update`, the engine on top of `qrng_base`; every floating-point operation rounded | invariants of the triangular coefficient array; coefficients and digit sums are exact integers below 2^24; error analysis of `r *= recip_base` and of the sums, relative to the last digit; the table is shown to hold all primes up to 1117 by trial division. The same position argument as C36 (`QReachProofs.v`) carries discard, seed, throw and restore over to faure |
| C52 | same | coordinate c is the Taylor shift by c of the digit polynomial modulo a prime; a polynomial of degree < m with zeros of total multiplicity m at distinct points is 0 (`net_zero`), so the map from points to leading digits is injective, hence bijective by counting |
| C53 | all of `niederreiter_base2_lattice::resize`, `bitset_log2`, `modulo2_multiply`, `calculate_v` (`NiedModel.v`), and the table of polynomials (`NiedTable.v`); bitsets are lists or binary numbers with a size, out-of-range access is undefined | loop invariants for the bits set so far; the truncated product is the polynomial product modulo x^size; the table is checked against all 65536 candidates by division by the irreducible polynomials of degree at most 7 (`NiedTableProofs.v`) |
| C54 | the lattices of C37 and C53 with the Gray-code points of C37 | polynomials over GF(2) act on bit sequences (`act`, shared with the polynomial jump of C23); row b of a coordinate is killed by p^(b/e+1); rows of coprime polynomials whose degrees add up to at most m are independent on m columns (`free_rows`); independent linear forms split each block evenly, by cancellation of signed sums (`free_count`) |
| C55 | `discrete_distribution` with real weights: `real_alias_table` (all members), `init`, `operator()`, `probabilities`, `max` (`RDiscModel.v`); every operation rounds | relative errors of sums, quotients and accumulate (`near`); the Vose loop conserves weights up to one rounding of 2n+2 units per step (`r_vose_ok`), whatever the order of the lists; leftovers deviate from 1 to the same side, so the total error bounds each; refutations by computation. Overflow to infinity is not modelled |
| C56 | `operator()(urng, parm)`, `param_type` constructors with real weights | invariant of the cumulating loop; error of the partial sums; refutations by computation |
| C57 | all of `piecewise_constant_distribution` but streaming (`PieceModel.v`), on top of C55 and the `uniform_real` of C45 | the parameters are normalized twice; relative errors of both (`ps_err`); the boundaries of the function constructor by error analysis (`fun_ivals`); refutations by computation |
| C58 | all of `piecewise_linear_distribution` but streaming | errors of the bin weights, underflow included (`bin_rect`, `bin_tri`); counting of pairs for the maximum and minimum of two uniform numbers (`pairs_max`, `pairs_min`) |
| C59 | all of `binomial_distribution` but streaming (`BinModel.v`), also the rejection algorithm; `pow`, `sqrt`, `log` are parameters | the ratio of successive probabilities has a bounded relative error that grows like 1/(t+1-x) (`kap`), summed along the loop (`loop_acc`); the last step gives `r1 <= 0`, so the loop breaks (`last_break`); the range by computation |
| C60 | `init` and `generate` of `binomial_distribution` (the whole rejection algorithm, `BinModel.v`) | bounds of the constants linear in the mean (`btrd_facts`), so the quick branch stays in [0,t] (`quick_ok`); relative error of the product of ratios (`prod_ok`); refutation by computation |
| C61 | `init`, `invert`, `operator()` of `poisson_distribution` (`PoisModel.v`) | e^m is specified by the partial sums of its series (`PoisSpec.v`); invariant of the loop: p is near the exact probability or both are below the normal numbers (`okp_step`), error of u summed (`ploop`), tail of the series (`s_tail`); the endless loop by computing 55 turns and an invariant (`stuck`) |
| C62 | `init`, `generate`, `log_factorial`, `operator()` of `poisson_distribution` | bounds of the constants from mean >= 10 (`ptrd_facts`), of the first branch (`pquick_ok`) and of k (`phat_ok`), every operation defined (`ptry_ok`); the overflow by computation |
| C63 | the two acceptance tests of `generate` of `poisson_distribution`, with the table of `log_factorial` | in the real numbers (`PoisRSpec.v`: the probability `ppmf`, the error of log and sqrt). Stirling's series with an error below 10^-10 for k >= 10 (`stirling`: telescoping with the bounds of the logarithm series), the table entries by certified bounds of the logarithm (`ln_chk`), the rounding error of every operation (`st_ok`, `big_ok`, `small_ok`) |
| C64 | `detail::unit_exponential_distribution`: both tables (`ZigTable.v`, 514 numbers rounded to double), the three tests, the loop; `exponential_distribution::operator()` | in the real numbers (`ZigSpec.v`: the curve, equal areas, `height`, the error of exp). Tables: certified bounds of exp by fixed-point arithmetic with Taylor polynomials and squaring (`exp_chk`, `ex_table`). Tests: tangents and chords of the curve (`Zig1Proofs.v`), rounding error of each test (`Zig3Proofs.v`, `Zig4Proofs.v`), bounds of all layers by computation. Runs by induction on the number of turns (`ez_loop_run`), composed with `generate_int_float_pair` (C44) and `uniform_01` (C45) |
| C65 | `detail::unit_normal_distribution`: both tables, the tests for convex and concave layers, `generate_tail`, the sign; `normal_distribution::operator()` | as C64; tangents above or below the curve by bounds of the logarithm (`tan_convex`, `tan_concave`), the layer with the inflection point by the slope at its left end (`nchord_infl`); the tail by its acceptance test (`C65_tail`, `C65_tail_run`) |
| C66 | `geometric_distribution` (both classes): `init`, `operator()`, `p()` | the quotient of the two logarithms with relative errors is turned into bounds on powers of 1-p (`geo_core`, `geo_val_ok`); the deprecated class by Sterbenz-like exactness of 1-(1-p) (`geo_old_rt`) |
| C67 | `triangle_distribution`: `init`, `operator()` | square roots never of negative numbers by monotonicity of rounding (`arg_nn`); errors of products of square roots (`prod_err`, `sqrt_pert`), `branch1`, `branch2` |
| C68 | `weibull_distribution`, `extreme_value_distribution`: `operator()` | relative errors through log, pow and the products (`wei_main`, `exv_main`) |
| C69 | `cauchy_distribution`: `operator()`, its constant for pi | pi is bounded by partial sums of a Machin-like series of the standard library (`pi_double`, `pi_single`), then the argument of tan is within (-pi/2, pi/2) (`cau_main`); float by `cau_single` |
| C70 | `gamma_distribution`: constructor assertions, `init`, `operator()` (`GamModel.v`); the uniform and exponential numbers are programs | derivative of the logarithm of density over hat (`hat_log`); error propagation through tan, sqrt, log, exp and pow (`ratio_ok`, `p_ok`, `xq1`, `xq2`); retry loop by induction on the draws. That the documented values are > 0 is refuted |
| C71 | `beta_distribution`, `chi_squared_distribution`, `fisher_f_distribution`, `student_t_distribution`: `operator()`, `n()`; both orders of evaluation | quotients of numbers with relative errors (`quot_rel`); composed with C70. Definedness for all documented parameters is refuted |
| C72 | `negative_binomial_distribution`: `operator()`; poisson_distribution is an arbitrary program that asserts mean > 0 | the gamma variate is at least epsilon for k >= 2, hence its product with (1-p)/p does not underflow. That a Poisson variate with gamma distributed mean is negative binomial is not proved. The documented domain is refuted |
| C73 | `laplace_distribution`, both `lognormal_distribution` classes: `operator()`, `init` | error propagation; logarithms of perturbed numbers (`ln_rel`) |
| C74 | `binomial_distribution::generate`: the test more than 15 from the mode; `fc` and its table; `r`, `npq` and `m` of `init` (`BinModel.v`) | sums of logarithms along the path from m to k against the squeeze (`squeeze`, Bin8Proofs); a calculus of relative errors (`rl`, Bin9Proofs); Stirling's formula with error (`fc_ok`); the final sum by error propagation (`sum_ok`, `far_ok`). The quick acceptance far below the mode is refuted |
| C75 | `hyperexponential_distribution.hpp` (`HypModel.v`): normalize and the checks, all constructors of param_type, the end of operator>>, constructors of the distribution, `probabilities`, `param`, both `operator()` | the partial sums of the quotients against the exact ones (`hx_ok`); the last subtraction is exact (Sterbenz), so the sum is 1 (`one_minus_exact`, `hx_sum`) and normalizing is idempotent (`hx_idem`); table of the alias method (C55) and the ziggurat (C64) composed (`C75_run`); law by the areas of the table (`C75_law`). Refuted: the last probability may be -2^-52; the iterator constructor does not normalize; `param(p)` with fewer phases |
| C76 | `uniform_on_sphere.hpp` (`SphModel.v`): constructors, `param`, `min`, `max`, `operator()` for every dimension; the container is a list | a calculus of relative errors with zero (`rn`, SphProofs); 2u-1 is zero or at least 2^-digits (`coord_ok`), so no square underflows; numbers of the ziggurat are zero or not small (`unit_low`); norm of the result (`norm_ok`, `map3_ok`); a square root computed with integers for the examples (`zsqrt_ok`). That results are at most `max()` is refuted for dimensions 2 and 3 |
| C77 | `non_central_chi_squared_distribution.hpp` (`NccModel.v`): assertions and `operator()`; normal, chi squared and Poisson operators are parameters, instantiated by the models of C65 and C71 in the theorems, any Poisson program | law: exponential series (`mix_sum`) and completing the square (`square_gauss`); runs: composition of the sources of C70 and C71; rounding (`sum_ok`, `sub_ok`, `deg_ok`). The documented requirement k > 0, lambda > 0 is refuted as sufficient for the least positive double |
| C78 | `detail/vector_io.hpp` and the stream operators of four `param_type`s (`VioModel.v`) on characters with eofbit and failbit; text of an element and `num_get` are parameters, given for integers | induction over the vector (`loop_rest`, `read_print`) and over the passes of the reading loop (`loop_suffix`, `loop_fails`, `read_shape`); decimal text (`int_elem`). Refuted: every number between the brackets becomes an element; accepted text gives a usable distribution |
| C79 | The typedefs of ranlux.hpp over the models of `subtract_with_carry_engine`, `subtract_with_carry_01_engine` and `discard_block_engine` (`RlxModel.v`). `RlxSpec.v` attaches to a history and a carry the number X = sum x(n-r+i) b^i - sum x(n-s+i) b^i + c. | One call satisfies b X' = X + m v, proved from the recurrence of C14; 0 <= X <= m with equality exactly in the fixed points. Uniqueness of the congruential output uses that b is a unit modulo m. A period of the outputs gives back the history and, from one more output, the carry, so X; with decimation by p the difference of two X is at most b in absolute value in every block, and since p is prime to the order some block is b^2 apart, so it is 0. `OrdProofs.v` proves Fermat's theorem and Pocklington's criterion, `Ord2Proofs.v` a certificate for the order of an element. The certificate for 2^576 - 2^240 + 1 takes the independent checker too long and is left out, so the primality of that modulus and the numerical periods are not proved here. The modulus of the 48 bit engines with lags 10 and 24 is not prime, and nothing is claimed about their periods. |
| C80 | The typedefs `minstd_rand0`, `minstd_rand`, `hellekalek1995`, `ecuyer1988` and the state of `rand48` over the models of C06, C11, C12 and C13 (`PerModel.v`). `PerSpec.v` says what a full cycle and a period of the outputs are. | The multipliers of minstd and ecuyer1988 are primitive roots, by the certificates of `Ord2Proofs.v`. For rand48, 2^j steps add 2^j times an odd number, by induction on j; so only multiples of 2^48 return, and 2^47 steps flip the top bit of every output. The step of hellekalek1995 is a matrix on the projective line: its power 2^31 is scalar, its power 2^30 is not, and b^2 + 4a is not a square, so every point lies on one cycle of length p + 1, from which the code leaves out the point at infinity. For the outputs of ecuyer1988, a period times m2 - 1 fixes the first state and a period times m1 - 1 the second; the remaining half period negates both states, which the outputs show. Visiting every value follows from the number of distinct values. |
| C81 | `taus88` and its three registers over the models of C24 and C25. Periods of outputs are those of `PerSpec.v`. | `GfProofs.v` lets a polynomial over the field of two elements act on a bit sequence by shifts, and proves that multiplication and powers modulo x^k + x^q + 1, computed on binary numbers, act in the same way on every sequence with that recurrence. The shift by 2^k - 1 acts as the identity; for every prime r of 2^k - 1 the shift by (2^k - 1)/r, less the identity, has an inverse given as a certificate, so only the zero sequence has that period. The words of a register are windows of such a sequence s digits apart, s prime to 2^k - 1. Exclusive or of sequences with coprime periods has the product as its period. |

Properties that turn out to be false of the faithful model are kept and
answered by a theorem `..._refuted` with a concrete witness plus a theorem for
the largest class of inputs found for which they hold.

## 3. Trusted base

* The Coq 8.16.1 kernel (including `vm_compute`).
* The axioms printed by `Print Assumptions` below each property theorem: none,
  except for the C49 and C63 to C77 theorems. The three C49 theorems check the 640 polynomials of the
  mixmax table with the standard library's primitive 63-bit integers
  (`Coq.Numbers.Cyclic.Int63`), and so depend on the primitives `PrimInt63.int`,
  `add`, `sub`, `mulc`, `land`, `lor`, `lsl`, `lsr`, `eqb`, `ltb`, `leb` and on
  the axioms `Uint63.add_spec`, `sub_spec`, `mulc_spec`, `land_spec`,
  `lor_spec`, `lsl_spec`, `lsr_spec`, `eqb_correct`, `eqb_refl`, `ltb_spec`,
  `leb_spec`, `of_to_Z` of that library.
  The C63 to C77 theorems are about the real numbers of the standard library
  (`Coq.Reals`), and so depend on its axioms
  `ClassicalDedekindReals.sig_forall_dec`, `ClassicalDedekindReals.sig_not_dec`,
  `FunctionalExtensionality.functional_extensionality_dep` and
  `Classical_Prop.classic`. No other axiom is used anywhere.
* That the Gallina definitions transcribe the C++ code. Each definition cites
  the lines it stands for.
* As a check of the transcription, the models were run (outside the build)
  against the 10000th-value constants in the repository's `test/` directory for
  default, `seed_seq` and iterator seeding: minstd_rand0, rand48,
  hellekalek1995, ecuyer1988, ranlux24_base and ranlux48_base (also the real
  variants), taus88, mt19937, mixmax, splitmix64. All agreed.
* Not modelled: template metaprogramming that only selects types, compile-time
  assertions, allocation failure, iostream locale/format flags, floating-point
  distributions other than those listed, `random_device`, thread safety,
  performance.

## 4. Simplifications

They are stated in the comment of the definition concerned. General ones:
engines are deterministic functions of their state; iterators are lists;
exceptions are a constructor of the result type.

## 5. Status

Kept in `MANIFEST.json`.

{"id": "C01", "title": "uniform_int_distribution stays inside [a,b]", "statement": "Every value returned by uniform_int_distribution<IntType>(a,b)(eng) lies between a and b inclusive, for signed and unsigned IntType up to the full width of the type, and computing it never overflows a signed type.", "quantifier": "all a<=b of the type, all engine ranges [min,max], all engine output streams", "why_tests_cant": "The (a,b,engine range) space is astronomically large; the branch taken depends on an arithmetic coincidence between the two ranges (one being a power of the other) that sampled tests never hit.", "anchors": [{"file": "include/boost/random/uniform_int_distribution.hpp", "symbols": ["detail::generate_uniform_int", "uniform_int_distribution::operator()"]}, {"file": "include/boost/random/detail/signed_unsigned_tools.hpp", "symbols": ["detail::subtract", "detail::add"]}]}
{"id": "C02", "title": "uniform_int_distribution is exactly uniform", "statement": "If the engine's outputs are equiprobable, every value of [a,b] is returned for exactly the same number of accepted engine-output tuples: there is no modulo bias.", "quantifier": "all a<=b, all engine ranges, all target values", "why_tests_cant": "A statistical test sees only bias large compared to sampling noise; exact equality of preimage counts is a statement about all tuples.", "anchors": [{"file": "include/boost/random/uniform_int_distribution.hpp", "symbols": ["detail::generate_uniform_int"]}]}
{"id": "C03", "title": "uniform_int_distribution consumes a predictable, bounded number of engine calls per attempt and always has accepting outputs", "statement": "One attempt of uniform_int_distribution uses the least number of engine draws whose combined range covers b-a (exactly one when the engine range is at least b-a), and at every attempt some tuple of engine outputs is accepted, so the rejection loop is never an unconditional infinite loop and the internal recursion always shrinks the range.", "quantifier": "all a<=b, all engine ranges with at least two values", "why_tests_cant": "Non-termination for a particular pair of ranges cannot be excluded by running some pairs.", "anchors": [{"file": "include/boost/random/uniform_int_distribution.hpp", "symbols": ["detail::generate_uniform_int"]}]}
{"id": "C04", "title": "uniform_smallint: range and folding", "statement": "uniform_smallint(a,b)(eng) consumes exactly one engine value, stays within [a,b], and each value a+i is produced by floor(R/r) or floor(R/r)+1 of the R engine values (r=b-a+1; the extra one exactly for i < R mod r), as the documentation promises.", "quantifier": "all a<=b, all integral engine ranges", "why_tests_cant": "The documented quantisation bound is about counts over the entire engine range.", "anchors": [{"file": "include/boost/random/uniform_smallint.hpp", "symbols": ["uniform_smallint::generate", "uniform_smallint::operator()"]}]}
{"id": "C05", "title": "random_number_generator(n) is in [0,n)", "statement": "random_number_generator<URNG>(urng)(n) returns a value in [0,n) for every positive n, so it is safe to use with std::random_shuffle.", "quantifier": "all n>0, all engine ranges and streams", "why_tests_cant": "Out-of-range index depends on coincidences of n and engine range.", "anchors": [{"file": "include/boost/random/random_number_generator.hpp", "symbols": ["random_number_generator::operator()"]}, {"file": "include/boost/random/uniform_int_distribution.hpp", "symbols": ["detail::generate_uniform_int"]}]}
{"id": "C06", "title": "linear_congruential_engine follows x(n+1) = (a*x(n)+c) mod m", "statement": "Whatever the integer type, multiplier, increment and modulus (m=0 meaning the word size), operator() returns exactly (a*x+c) mod m, with no overflow artefact.", "quantifier": "all word types up to 64 bits, all a,c<m (or m=0), all states", "why_tests_cant": "Different code paths (native wrap, power of two, small product, Schrage, 64x64 bit schoolbook division) are selected at compile time; the faulty digit pattern inside long division is hit with probability about 2^-32.", "anchors": [{"file": "include/boost/random/linear_congruential.hpp", "symbols": ["linear_congruential_engine::operator()"]}, {"file": "include/boost/random/detail/const_mod.hpp", "symbols": ["const_mod::mult", "const_mod::mult_add", "const_mod::add", "const_mod::apply"]}, {"file": "include/boost/random/detail/large_arithmetic.hpp", "symbols": ["detail::muldivmod", "detail::mulmod"]}]}
{"id": "C07", "title": "linear_congruential_engine outputs lie in [min(),max()]", "statement": "Every output of a linear_congruential_engine seeded by any public constructor, seed() or successful stream extraction is between min() and max(); with c=0 the engine never becomes stuck at 0 for prime m.", "quantifier": "all parameters, all seeds, any number of steps", "why_tests_cant": "Needs an invariant over unbounded executions.", "anchors": [{"file": "include/boost/random/linear_congruential.hpp", "symbols": ["linear_congruential_engine::seed", "linear_congruential_engine::operator()", "linear_congruential_engine::min", "linear_congruential_engine::max"]}]}
{"id": "C08", "title": "linear_congruential_engine::discard(z) equals z calls", "statement": "Calling discard(z) leaves the engine in the same state as calling operator() z times and ignoring the results.", "quantifier": "all parameters a,c,m, all states, all z", "why_tests_cant": "z ranges over 2^64 values; the closed form used only works under number-theoretic conditions on a,c,m.", "anchors": [{"file": "include/boost/random/linear_congruential.hpp", "symbols": ["linear_congruential_engine::discard"]}, {"file": "include/boost/random/detail/const_mod.hpp", "symbols": ["const_mod::pow", "const_mod::invert"]}]}
{"id": "C09", "title": "linear_congruential_engine seeding from a number", "statement": "seed(x0) sets the state to x0 mod m (mathematical residue, also for negative x0), except that 1 is used when c mod m = 0 and x0 mod m = 0.", "quantifier": "all parameters and all integer seeds incl. negative ones", "why_tests_cant": "Wrap-around at type limits for arbitrary seeds.", "anchors": [{"file": "include/boost/random/linear_congruential.hpp", "symbols": ["linear_congruential_engine::seed"]}]}
{"id": "C10", "title": "linear_congruential_engine text save/restore", "statement": "Writing an engine to a stream and reading it back gives an equal engine; reading a number outside [min,max] sets failbit and leaves the engine unchanged.", "quantifier": "all parameters, all reachable states, all input texts", "why_tests_cant": "Universal over states and texts.", "anchors": [{"file": "include/boost/random/linear_congruential.hpp", "symbols": ["operator<<", "operator>>", "linear_congruential_engine::read"]}]}
{"id": "C11", "title": "rand48 is the POSIX drand48/lrand48 family", "statement": "rand48 seeded with x returns the same values as POSIX srand48(x)/lrand48(): state (x mod 2^32)*2^16+0x330E, step X=(0x5DEECE66D X+0xB) mod 2^48, output floor(X/2^17); all outputs in [0,2^31-1].", "quantifier": "all 32 bit seeds, all n", "why_tests_cant": "Tests check one value (the 10000th).", "anchors": [{"file": "include/boost/random/linear_congruential.hpp", "symbols": ["rand48"]}]}
{"id": "C12", "title": "modular inverse used by inversive_congruential_engine and discard is a true inverse", "statement": "inversive_congruential_engine follows x(n+1) = (a*inv(x(n)) + b) mod p with inv(0)=0 and inv(x)*x = 1 mod p otherwise (whenever gcd(x,p)=1); outputs in [min(),max()].", "quantifier": "all coprime x,p of any supported width", "why_tests_cant": "The Euclid loop is unrolled by two with asymmetric exits; correctness needs an invariant over all p and x.", "anchors": [{"file": "include/boost/random/inversive_congruential.hpp", "symbols": ["inversive_congruential_engine::operator()"]}, {"file": "include/boost/random/detail/const_mod.hpp", "symbols": ["const_mod::invert", "const_mod::invert_euclidian", "const_mod::invert_euclidian0"]}]}
{"id": "C13", "title": "additive_combine_engine range and formula", "statement": "Each output of additive_combine_engine<L1,L2> (including ecuyer1988) lies in [min(),max()] = [1,m1-1] and is congruent to x1-x2 modulo m1-1, where x1,x2 are the outputs of the two components.", "quantifier": "all component outputs, all pairs of moduli", "why_tests_cant": "The unsigned difference wraps for some modulus pairs only.", "anchors": [{"file": "include/boost/random/additive_combine.hpp", "symbols": ["additive_combine_engine::operator()", "additive_combine_engine::min", "additive_combine_engine::max", "ecuyer1988"]}]}
{"id": "C14", "title": "subtract_with_carry_engine implements the published recurrence", "statement": "The sequence of outputs satisfies x(n) = (x(n-s) - x(n-r) - c(n-1)) mod 2^w with carry c(n)=1 iff the difference was negative; all outputs lie in [min(),max()]; this holds across buffer wrap-around.", "quantifier": "all w,s,r, all states, all n", "why_tests_cant": "Infinite sequence; ring buffer index arithmetic.", "anchors": [{"file": "include/boost/random/subtract_with_carry.hpp", "symbols": ["subtract_with_carry_engine::operator()", "subtract_with_carry_engine::do_update", "subtract_with_carry_discard"]}]}
{"id": "C15", "title": "subtract_with_carry_engine::discard(z) equals z calls", "statement": "Calling discard(z) leaves the engine producing the same future sequence as z calls of operator().", "quantifier": "all states (any buffer position), all z", "why_tests_cant": "The existing tests use one z larger than the buffer from one position.", "anchors": [{"file": "include/boost/random/subtract_with_carry.hpp", "symbols": ["detail::subtract_with_carry_discard::apply", "subtract_with_carry_engine::discard"]}]}
{"id": "C16", "title": "subtract_with_carry_engine equality means same future sequence", "statement": "Two engines compare equal if and only if they will produce identical sequences of values.", "quantifier": "all pairs of reachable states", "why_tests_cant": "Pairs of states, infinite sequences.", "anchors": [{"file": "include/boost/random/subtract_with_carry.hpp", "symbols": ["operator=="]}]}
{"id": "C17", "title": "subtract_with_carry_engine text save/restore", "statement": "Writing an engine at any buffer position and reading the text into another engine yields an equal engine with the same future outputs.", "quantifier": "all states and positions", "why_tests_cant": "The ring buffer must be rotated on output; correctness for every position.", "anchors": [{"file": "include/boost/random/subtract_with_carry.hpp", "symbols": ["operator<<", "operator>>", "subtract_with_carry_engine::compute"]}]}
{"id": "C18", "title": "lagged_fibonacci_engine implements x(n)=x(n-p)+x(n-q) mod 2^w", "statement": "Outputs satisfy x(n) = (x(n-p)+x(n-q)) mod 2^w, lie in [0,2^w-1], equality coincides with identical future sequences for equal positions and text save/restore preserves them.", "quantifier": "all w,p>q, all states, all n", "why_tests_cant": "In-place block refill must not read already overwritten entries.", "anchors": [{"file": "include/boost/random/lagged_fibonacci.hpp", "symbols": ["lagged_fibonacci_engine::operator()", "lagged_fibonacci_engine::fill"]}]}
{"id": "C19", "title": "mersenne_twister_engine implements the published recurrence and tempering", "statement": "The n-th output equals tempering applied to the n-th term of x(k+n)=x(k+m) xor twist(upper(x(k)),lower(x(k+1))), for any parameters, regardless of the internal batching into blocks; outputs are in [0,2^w-1].", "quantifier": "all parameters, all states, all n", "why_tests_cant": "Batch regeneration is unrolled in blocks; needs induction over positions.", "anchors": [{"file": "include/boost/random/mersenne_twister.hpp", "symbols": ["mersenne_twister_engine::operator()", "mersenne_twister_engine::twist"]}]}
{"id": "C20", "title": "mersenne_twister tempering is a bijection", "statement": "The output tempering of mt11213b, mt19937 and mt19937_64 is a bijection on w-bit words: no output value is unreachable or over-represented.", "quantifier": "all w-bit words", "why_tests_cant": "2^32 / 2^64 inputs; inverse needs a proof.", "anchors": [{"file": "include/boost/random/mersenne_twister.hpp", "symbols": ["mersenne_twister_engine::operator()", "mt11213b", "mt19937", "mt19937_64"]}]}
{"id": "C21", "title": "mersenne_twister seeding", "statement": "seed(value) produces the standard initialisation sequence, and no seeding function leaves the engine in the all-zero state (which would output only zeros).", "quantifier": "all seeds, all seed sequences", "why_tests_cant": "All inputs; degenerate state detection inspects only some bits.", "anchors": [{"file": "include/boost/random/mersenne_twister.hpp", "symbols": ["mersenne_twister_engine::seed", "mersenne_twister_engine::normalize_state"]}]}
{"id": "C22", "title": "mersenne_twister equality and text save/restore", "statement": "Two engines compare equal iff they produce the same future sequence position by position; writing at any position and reading back yields an equal engine.", "quantifier": "all states, all positions", "why_tests_cant": "Positions 0..n and regenerated history words need proof.", "anchors": [{"file": "include/boost/random/mersenne_twister.hpp", "symbols": ["operator==", "mersenne_twister_engine::print", "mersenne_twister_engine::rewind", "mersenne_twister_engine::compute"]}]}
{"id": "C23", "title": "mersenne_twister discard(z) equals z calls", "statement": "discard(z) is equivalent to z calls of operator(), both for short skips and for the polynomial jump used for very long skips.", "quantifier": "all states, all z", "why_tests_cant": "Jumps longer than 10^7 are impractical to verify by stepping; the jump uses polynomial arithmetic over GF(2).", "anchors": [{"file": "include/boost/random/mersenne_twister.hpp", "symbols": ["mersenne_twister_engine::discard", "mersenne_twister_engine::discard_many"]}, {"file": "include/boost/random/detail/polynomial.hpp", "symbols": ["polynomial", "polynomial_ops", "mod_pow_x"]}]}
{"id": "C24", "title": "linear_feedback_shift_engine: range, recurrence, never stuck", "statement": "Outputs lie in [0,2^w-1], successive words obey the Tausworthe recurrence of the parameters, and the register can never reach the degenerate state from a seeded state.", "quantifier": "all w,k,q,s, word types at least w bits wide, all seeds, all n", "why_tests_cant": "Invariant over all executions; depends on the width of the word type.", "anchors": [{"file": "include/boost/random/linear_feedback_shift.hpp", "symbols": ["linear_feedback_shift_engine::operator()", "linear_feedback_shift_engine::seed"]}]}
{"id": "C25", "title": "xor_combine_engine outputs lie in [min(),max()]", "statement": "Each output of xor_combine_engine lies between its min() and max(), and equals (x1<<s1)^(x2<<s2).", "quantifier": "all component ranges, shifts, outputs", "why_tests_cant": "Bounds of XOR are not monotone in its operands.", "anchors": [{"file": "include/boost/random/xor_combine.hpp", "symbols": ["xor_combine_engine::operator()", "xor_combine_engine::min", "xor_combine_engine::max"]}, {"file": "include/boost/random/taus88.hpp", "symbols": ["taus88"]}]}
{"id": "C26", "title": "independent_bits_engine: w unbiased bits", "statement": "Each output lies in [0,2^w-1] and, for equiprobable engine outputs, all 2^w values have the same number of accepted engine-output tuples; no shift amount is out of range.", "quantifier": "all w, all engine ranges", "why_tests_cant": "Exact uniformity and absence of undefined shifts over all ranges.", "anchors": [{"file": "include/boost/random/independent_bits.hpp", "symbols": ["independent_bits_engine::operator()", "independent_bits_engine::calc_params"]}]}
{"id": "C27", "title": "discard_block_engine returns the first r of each p base outputs", "statement": "The n-th output is base output number p*(n div r) + n mod r; range equals the base range.", "quantifier": "all p>=r>=1, all n, all base engines", "why_tests_cant": "Infinite sequence.", "anchors": [{"file": "include/boost/random/discard_block.hpp", "symbols": ["discard_block_engine::operator()"]}]}
{"id": "C28", "title": "shuffle_order_engine: table index in bounds, outputs are base outputs in shuffled order", "statement": "Every table access is in bounds; the index is floor(k*(y-min)/(max-min+1)) as in the C++ standard; each output is a base output, and the multiset of outputs plus table plus pending value equals the multiset of consumed base values.", "quantifier": "all k>=1, all base ranges, all base streams, all n", "why_tests_cant": "Out-of-bounds access depends on extreme base values; multiset conservation is over unbounded runs.", "anchors": [{"file": "include/boost/random/shuffle_order.hpp", "symbols": ["shuffle_order_engine::operator()", "shuffle_order_engine::init"]}, {"file": "include/boost/random/detail/large_arithmetic.hpp", "symbols": ["detail::muldiv"]}]}
{"id": "C29", "title": "splitmix64 visits every 64-bit value exactly once per period", "statement": "Over any 2^64 consecutive calls each 64-bit value is output exactly once; in particular two calls less than 2^64 apart never return the same value; discard(z) equals z calls; seed(0) gives the documented default state.", "quantifier": "all states, all z", "why_tests_cant": "Period 2^64.", "anchors": [{"file": "include/boost/random/splitmix64.hpp", "symbols": ["splitmix64::next", "splitmix64::operator()", "splitmix64::discard", "splitmix64::seed"]}]}
{"id": "C30", "title": "splitmix64 text save/restore", "statement": "Writing an engine to a stream and reading it back gives an equal engine, also when other values follow in the stream.", "quantifier": "all states, all following text", "why_tests_cant": "All states and texts.", "anchors": [{"file": "include/boost/random/splitmix64.hpp", "symbols": ["operator<<", "operator>>"]}]}
{"id": "C31", "title": "mixmax implements its modular matrix recurrence", "statement": "Each block refresh is the linear map of the MIXMAX matrix modulo 2^61-1 on the state vector, the stored sum stays congruent to the sum of the vector, and no 64-bit overflow occurs in the reduced arithmetic; outputs lie in [0,2^61-1].", "quantifier": "all states, all n", "why_tests_cant": "All states; reductions are lazy and not canonical.", "anchors": [{"file": "include/boost/random/mixmax.hpp", "symbols": ["mixmax_engine::operator()", "mixmax_engine::iterate_raw_vec", "mixmax_engine::MULWU", "mixmax_engine::MIXMAX_MOD_MERSENNE", "mixmax_engine::fmodmulM61"]}]}
{"id": "C32", "title": "mixmax text save/restore", "statement": "Writing a mixmax engine in any reachable state and reading it back yields an equal engine.", "quantifier": "all reachable states", "why_tests_cant": "Only some counter positions fail.", "anchors": [{"file": "include/boost/random/mixmax.hpp", "symbols": ["operator<<", "operator>>"]}]}
{"id": "C33", "title": "seed_seq::generate implements the C++ standard algorithm", "statement": "seed_seq(v).generate(first,last) writes the words prescribed by [rand.util.seedseq] for every v and every output length, for any unsigned value type of at least 32 bits.", "quantifier": "all seed vectors, all output lengths, all value types", "why_tests_cant": "Infinite family of lengths with different shift constants.", "anchors": [{"file": "include/boost/random/seed_seq.hpp", "symbols": ["seed_seq::generate"]}]}
{"id": "C34", "title": "seeding an engine from an iterator range consumes exactly the needed words", "statement": "seed(first,last) consumes exactly the documented number of 32-bit elements (ceil(w/32) per state word), throws invalid_argument iff fewer are available, and the resulting state word is the little-endian combination of the elements reduced into range.", "quantifier": "all ranges, all word widths", "why_tests_cant": "All lengths and contents.", "anchors": [{"file": "include/boost/random/detail/seed_impl.hpp", "symbols": ["get_one_int", "fill_array_int", "seed_array_int"]}]}
{"id": "C35", "title": "engine.generate(first,last) fills 32-bit words uniformly", "statement": "The words written by generate() are below 2^32, depend only on the engine's outputs, and with equiprobable engine outputs are equiprobable; it terminates for a suitable stream and never writes outside [first,last).", "quantifier": "all engine ranges, all lengths, all streams", "why_tests_cant": "Packing of non power of two ranges and partial bits.", "anchors": [{"file": "include/boost/random/detail/seed_impl.hpp", "symbols": ["generate_from_int"]}]}
{"id": "C36", "title": "quasi-random engines: discard(z), seed(n) and operator() agree", "statement": "For sobol, niederreiter_base2 and faure style engines, discard(z) equals z calls of operator(), and seed(n) equals a fresh engine after n*dimension() calls, including calls stopping in the middle of a point.", "quantifier": "all dimensions, all z, all positions", "why_tests_cant": "Positions up to 2^64 with corrections at point boundaries.", "anchors": [{"file": "include/boost/random/detail/qrng_base.hpp", "symbols": ["qrng_base::operator()", "qrng_base::discard", "qrng_base::seed"]}, {"file": "include/boost/random/detail/gray_coded_qrng.hpp", "symbols": ["gray_coded_qrng::seed", "gray_coded_qrng::compute_seq"]}]}
{"id": "C37", "title": "base-2 quasi-random engines generate the Gray-code lattice point set", "statement": "The j-th coordinate of the n-th point is the XOR of the direction numbers selected by the bits of the Gray code of n; in dimension 1 (and every Sobol coordinate) the first 2^k points hit each dyadic interval of length 2^-k exactly once.", "quantifier": "all n up to the maximum, all dimensions supported", "why_tests_cant": "Point index up to 2^64.", "anchors": [{"file": "include/boost/random/detail/gray_coded_qrng.hpp", "symbols": ["gray_coded_qrng::compute_seq"]}, {"file": "include/boost/random/sobol.hpp", "symbols": ["detail::sobol_lattice::init_direction_numbers"]}, {"file": "include/boost/random/niederreiter_base2.hpp", "symbols": ["niederreiter_base2_lattice"]}]}
{"id": "C38", "title": "quasi-random engines stop with range_error, never wrap", "statement": "operator(), seed and discard throw std::range_error exactly when the requested position is past the last representable point, and a failed call leaves the engine usable in its previous position.", "quantifier": "all positions, all requests", "why_tests_cant": "Only at the end of astronomically long sequences.", "anchors": [{"file": "include/boost/random/detail/qrng_base.hpp", "symbols": ["qrng_base::discard", "qrng_base::next_state"]}, {"file": "include/boost/random/detail/gray_coded_qrng.hpp", "symbols": ["gray_coded_qrng::compute_seq", "gray_coded_qrng::seed", "gray_coded_qrng::set_zero_state"]}]}
{"id": "C39", "title": "quasi-random engines: text save/restore and equality", "statement": "Writing an engine and reading the text into any other engine of the same type restores dimension and position so that both produce the same sequence and compare equal.", "quantifier": "all dimensions, positions and target states", "why_tests_cant": "Depends on the previous state of the target engine.", "anchors": [{"file": "include/boost/random/detail/qrng_base.hpp", "symbols": ["operator<<", "operator>>", "operator=="]}, {"file": "include/boost/random/detail/gray_coded_qrng.hpp", "symbols": ["gray_coded_qrng::seed"]}]}
{"id": "C40", "title": "discrete_distribution with integral weights is exact", "statement": "For integral weights with positive, representable values, the alias table reproduces every weight exactly: over all accepted (column,threshold) pairs value i is selected exactly weight(i) times, and probabilities() returns the weights unchanged.", "quantifier": "all non-empty weight vectors with positive sum", "why_tests_cant": "Exactness over all weight vectors; Vose loop correctness.", "anchors": [{"file": "include/boost/random/discrete_distribution.hpp", "symbols": ["detail::integer_alias_table", "discrete_distribution::init", "discrete_distribution::operator()", "discrete_distribution::probabilities"]}]}
{"id": "C41", "title": "discrete_distribution state depends only on its parameters", "statement": "After d.param(p), d compares equal to, behaves as, and reports the same probabilities as a newly constructed discrete_distribution(p); text restore into an existing object therefore yields an equal object.", "quantifier": "all previous states of d, all p", "why_tests_cant": "Depends on the object's history.", "anchors": [{"file": "include/boost/random/discrete_distribution.hpp", "symbols": ["discrete_distribution::param", "discrete_distribution::init", "operator==", "operator>>", "discrete_distribution::probabilities"]}]}
{"id": "C42", "title": "discrete_distribution call with explicit parameters uses those weights", "statement": "d(urng, p) returns i with probability weight(i)/sum, as for a distribution constructed from p.", "quantifier": "all integral weight vectors", "why_tests_cant": "Overflow guard only matters for extreme weights.", "anchors": [{"file": "include/boost/random/discrete_distribution.hpp", "symbols": ["integer_alias_table::try_get_sum", "discrete_distribution::operator()"]}]}
{"id": "C43", "title": "bernoulli_distribution probability error bound", "statement": "With an engine of R+1 equiprobable outputs, bernoulli_distribution(p) returns true for between p*(R+1) - 1 and p*(R+1) + 1 of them; always true for p=1 and never for p=0.", "quantifier": "all p in [0,1], all engine ranges", "why_tests_cant": "Counts over the whole engine range.", "anchors": [{"file": "include/boost/random/bernoulli_distribution.hpp", "symbols": ["bernoulli_distribution::operator()"]}]}
{"id": "C44", "title": "combined float/bucket generation used by normal and exponential", "statement": "The bucket index drawn with a uniform float is always below 2^w and independent of the float; no shift is by a negative amount.", "quantifier": "all engine ranges and float formats", "why_tests_cant": "Shift amount depends on engine width and mantissa size.", "anchors": [{"file": "include/boost/random/detail/int_float_pair.hpp", "symbols": ["generate_one_digit", "generate_int_float_pair"]}]}
{"id": "C45", "title": "uniform_01, uniform_real and generate_canonical respect half-open ranges", "statement": "uniform_01 and generate_canonical return values in [0,1) and uniform_real(a,b) in [a,b), for every engine output, with floating-point rounding taken into account.", "quantifier": "all engine outputs, all a<b, every rounding", "why_tests_cant": "Rounding corner cases at the ends.", "anchors": [{"file": "include/boost/random/uniform_01.hpp", "symbols": ["new_uniform_01::operator()"]}, {"file": "include/boost/random/uniform_real_distribution.hpp", "symbols": ["detail::generate_uniform_real"]}, {"file": "include/boost/random/generate_canonical.hpp", "symbols": ["generate_canonical_impl"]}]}
{"id": "C46", "title": "GF(2) polynomial arithmetic is correct", "statement": "The polynomial operations behind the generator jump (add, shift, schoolbook and Karatsuba multiplication, squaring, sparse remainder, power of x) compute the mathematical GF(2)[x] results for all operands and sizes.", "quantifier": "all polynomials, all digit counts", "why_tests_cant": "Unbounded operand sizes; recursion thresholds.", "anchors": [{"file": "include/boost/random/detail/polynomial.hpp", "symbols": ["polynomial_ops::add", "polynomial_ops::shift_left", "polynomial_ops::multiply_simple", "polynomial_ops::multiply_karatsuba", "polynomial_ops::sqr", "polynomial_ops::mod", "mod_pow_x"]}]}
{"id": "C47", "title": "64-bit multiply-divide helper is exact", "statement": "The quotient and remainder of a*b by m computed in double-word arithmetic are exact whenever the quotient fits, for every modulus (with 0 meaning 2^64).", "quantifier": "all 64-bit a,b,m with a*b/m < 2^64", "why_tests_cant": "Fails only for rare digit patterns.", "anchors": [{"file": "include/boost/random/detail/large_arithmetic.hpp", "symbols": ["detail::muldivmod", "detail::muldiv", "detail::mulmod"]}]}
{"id": "C48", "title": "Adaptor engines: text save/restore, equality and discard", "statement": "Reading back what operator<< wrote for linear_feedback_shift, xor_combine, discard_block and shuffle_order engines restores an engine that compares equal, provided the base engines do so; and engines that compare equal produce the same outputs; discard(z) is z calls.", "quantifier": "all states in range, all base engines with these properties, all n", "why_tests_cant": "Quantifies over all base engines and states.", "anchors": [{"file": "include/boost/random/linear_feedback_shift.hpp", "symbols": ["operator<<", "operator>>", "operator=="]}, {"file": "include/boost/random/xor_combine.hpp", "symbols": ["operator<<", "operator>>", "operator=="]}, {"file": "include/boost/random/discard_block.hpp", "symbols": ["operator<<", "operator>>", "operator=="]}, {"file": "include/boost/random/shuffle_order.hpp", "symbols": ["operator<<", "operator>>", "operator=="]}]}
{"id": "C49", "title": "mixmax seeding is an exact jump along one sequence", "statement": "Seeding mixmax with four 32-bit numbers (or one 64-bit number) yields exactly the state reached from the unit vector e_0 after 2^512*id steps of the MIXMAX matrix recurrence modulo 2^61-1, where id is the 128-bit number formed by the seeds; in particular all 128 rows of the skip table are correct.", "quantifier": "all 2^128 seeds", "why_tests_cant": "The number of skipped steps is at least 2^512; a wrong coefficient in the 128x17 table would still give plausible numbers.", "anchors": [{"file": "include/boost/random/mixmax.hpp", "symbols": ["mixmax_engine::seed_uniquestream", "mixmax_engine::apply_bigskip", "mixmax_engine::fmodmulM61", "mixmax_engine::seed"]}, {"file": "include/boost/random/detail/mixmax_skip_N17.ipp", "symbols": ["skipMat17"]}]}
{"id": "C50", "title": "generate_canonical delivers the requested random bits", "statement": "generate_canonical<Real, bits> uses the least number n of engine outputs for which (R+1)^n >= 2^min(bits,digits), and the result is the fraction whose digits in base R+1 are the outputs, rounded once; in particular for R+1 a power of two different outputs give different results and all results i/(R+1)^n occur.", "quantifier": "all engines (integral and floating-point), all bits, all formats and roundings", "why_tests_cant": "The number of outputs and the spread of the results depend on engine range and format; a test that checks the range [0,1) passes even if all results are below 2^-48.", "anchors": [{"file": "include/boost/random/generate_canonical.hpp", "symbols": ["generate_canonical_impl", "generate_canonical"]}, {"file": "include/boost/random/detail/generator_bits.hpp", "symbols": ["generator_bits"]}]}
{"id": "C51", "title": "faure: values are the points of the Faure sequence", "statement": "For every dimension up to 1117 the base is the least prime not less than the dimension, and the values returned are the coordinates of points 0,1,2,... of the Faure sequence in that base (digits of n multiplied by powers of the Pascal matrix) up to rounding, and lie in [min(), max()].", "quantifier": "all dimensions, all points, all floating-point formats with at least 24 digits and all roundings", "why_tests_cant": "The test compares a few points of small dimensions; rounding errors grow with the number of digits and only show at astronomically large n.", "anchors": [{"file": "include/boost/random/faure.hpp", "symbols": ["qrng_detail::faure", "primes", "binomial_coefficients::update", "compute_coefficients", "compute_recip", "faure_engine"]}, {"file": "include/boost/random/detail/qrng_base.hpp", "symbols": ["qrng_base::operator()"]}]}
{"id": "C52", "title": "faure: (0,s)-sequence", "statement": "In every aligned block of b^m points, every elementary box of volume b^-m (sides [a/b^d, (a+1)/b^d)) contains exactly one point.", "quantifier": "all dimensions up to 1117, all shapes of boxes, all blocks", "why_tests_cant": "The number of boxes and blocks is unbounded; a wrong matrix entry still gives plausible points.", "anchors": [{"file": "include/boost/random/faure.hpp", "symbols": ["binomial_coefficients::update", "compute_coefficients", "binomial_coefficients::get_values"]}]}
{"id": "C53", "title": "niederreiter_base2: direction numbers follow the recurrences of the irreducible polynomials", "statement": "niederreiter_base2_lattice is built without undefined behaviour in every dimension up to the maximum. In each coordinate with polynomial p of degree e, digit q*e+u of direction number k is v(k+u), where the sequence v starts with q*e zeros and e ones and follows the recurrence of p^(q+1). The table holds all irreducible polynomials of degree less than 16, in order.", "quantifier": "all dimensions, all digits, all direction numbers, all bit counts, all tables of irreducible polynomials", "why_tests_cant": "Tests compare the first points of a few dimensions; wrong low digits show only after 2^60 points and 4720 polynomials cannot be checked by looking at points.", "anchors": [{"file": "include/boost/random/niederreiter_base2.hpp", "symbols": ["bitset_log2", "modulo2_multiply", "calculate_v", "niederreiter_base2_lattice::resize"]}, {"file": "include/boost/random/detail/niederreiter_base2_table.hpp", "symbols": ["niederreiter_base2::polynomial"]}]}
{"id": "C54", "title": "sobol and niederreiter_base2: (t,s)-sequences", "statement": "In every aligned block of 2^m points (counted from point 0), every box with sides 2^-d(j) and volume at least 2^(t-m) contains exactly its share of the points, with t the sum over the coordinates of (degree of the polynomial - 1).", "quantifier": "all dimensions of the tables, all blocks, all boxes, all bit counts", "why_tests_cant": "The number of boxes and blocks is exponential in the dimension and the number of bits; a wrong direction number still gives plausible points.", "anchors": [{"file": "include/boost/random/sobol.hpp", "symbols": ["sobol_lattice::resize"]}, {"file": "include/boost/random/niederreiter_base2.hpp", "symbols": ["niederreiter_base2_lattice::resize"]}, {"file": "include/boost/random/detail/gray_coded_qrng.hpp", "symbols": ["gray_coded_qrng"]}]}
{"id": "C55", "title": "discrete_distribution, real weights: the alias table represents the weights up to rounding", "statement": "For every vector of non-negative real weights, whatever the table held before, init builds a table without undefined behaviour whose columns give value i an area within n(8n+18) units of rounding of n*w(i)/sum(w). operator() returns an index of the vector; values of weight 0 are never returned while n(4n+9) units of rounding stay below 1. probabilities() returns the normalized weights to within (18n+25) units of rounding.", "quantifier": "all weight vectors, all floating-point formats, all rounding directions, all engine outputs, all previous table contents", "why_tests_cant": "Tests use a few short weight vectors and statistics that cannot see rounding errors of 1e-15; the loss of a column depends on accumulated rounding over thousands of weights.", "anchors": [{"file": "include/boost/random/discrete_distribution.hpp", "symbols": ["detail::real_alias_table", "discrete_distribution::init", "discrete_distribution::operator()", "discrete_distribution::probabilities"]}]}
{"id": "C56", "title": "discrete_distribution, real weights: operator() with parameters partitions the unit interval", "statement": "operator()(urng, parm) returns i exactly when the uniform value lies in cell i of a partition of [0,1) whose boundaries are within (5n+2) units of rounding of the cumulated probabilities; the last cell is extended to 1. It never returns a value of probability 0. Parameters from an empty range behave like default parameters.", "quantifier": "all weight vectors, all formats and rounding directions, all engine outputs", "why_tests_cant": "The wrong results occur for one uniform value in 2^53, and for empty ranges no test calls this overload.", "anchors": [{"file": "include/boost/random/discrete_distribution.hpp", "symbols": ["discrete_distribution::param_type", "discrete_distribution::operator()", "detail::real_alias_table::normalize"]}]}
{"id": "C57", "title": "piecewise_constant_distribution: probabilities of the intervals, and results inside them", "statement": "For strictly increasing boundaries and one weight fewer, every constructor and param() give a distribution that chooses interval i with probability w_i / sum(w) up to n(16n+26) roundings (relative to 1/n) and then returns a number in [b_i, b_{i+1}); intervals of weight 0 are never chosen; no out-of-range access. Fewer than two boundaries give the default distribution on [0,1). The constructors from a function divide [xmin,xmax) into nw equal intervals, the same ones for the distribution and its parameters.", "quantifier": "all boundary and weight vectors, all formats and rounding directions, all previous contents of the object, all engine outputs", "why_tests_cant": "The vectors, formats and engine outputs are unbounded; the failures need particular roundings.", "anchors": [{"file": "include/boost/random/piecewise_constant_distribution.hpp", "symbols": ["piecewise_constant_distribution", "param_type", "operator()", "param"]}, {"file": "include/boost/random/discrete_distribution.hpp", "symbols": ["real_alias_table"]}]}
{"id": "C58", "title": "piecewise_linear_distribution: linear density by rectangles and triangles", "statement": "For strictly increasing boundaries with non-negative weights, every constructor and param() give bins whose probabilities are the areas of the rectangles and triangles under the graph up to n(16n+48) roundings, n the number of bins; operator() returns a number of an interval of positive density, from one uniform number in a rectangle and the larger or smaller of two in a triangle, which makes the density linear. Fewer than two boundaries give the default distribution. Objects that compare equal return the same numbers.", "quantifier": "all boundary and weight vectors, all formats and rounding directions, all previous contents of the object, all engine outputs", "why_tests_cant": "A statistical test cannot distinguish small deviations of the density, and the vectors are unbounded.", "anchors": [{"file": "include/boost/random/piecewise_linear_distribution.hpp", "symbols": ["piecewise_linear_distribution", "init", "operator()", "operator=="]}]}
{"id": "C59", "title": "binomial_distribution by inversion: the result inverts the distribution function", "statement": "When int((t+1)*min(p,1-p)) < 11, operator() uses one uniform number u and returns k with P(X<k) - E <= u <= P(X<=k) + E, X binomial(t,p) (counting failures for p > 1/2), E a bound of rounding errors; the loop ends after at most t+1 turns; no integer operation overflows; min() <= k <= max().", "quantifier": "all t, p, formats, pow functions of bounded error, engine outputs", "why_tests_cant": "The results outside [0,t] need uniform numbers within a few units of 1; a statistical test cannot bound the deviation for every t and p.", "anchors": [{"file": "include/boost/random/binomial_distribution.hpp", "symbols": ["binomial_distribution", "init", "use_inversion", "operator()", "invert"]}]}
{"id": "C60", "title": "binomial_distribution by rejection: range, definedness, acceptance near the mode", "statement": "When int((t+1)*min(p,1-p)) >= 11, operator() returns a number in [min(), max()] for all uniform numbers, and no operation is undefined; for |k-m| <= 15, k is accepted iff v <= P(X=k)/P(X=m), up to a relative error of rounding.", "quantifier": "all t, p, formats, rounding directions, sqrt and log functions, engine outputs", "why_tests_cant": "The undefined conversions need a uniform number below t/INT_MAX, and a wrong factor of the acceptance product changes the distribution by little.", "anchors": [{"file": "include/boost/random/binomial_distribution.hpp", "symbols": ["init", "generate", "fc", "operator()"]}]}
{"id": "C61", "title": "poisson_distribution by inversion: the result inverts the distribution function", "statement": "When mean < 10, operator() uses one uniform number u and returns k with P(X<k) - E <= u <= P(X<=k) + E, X Poisson distributed with the given mean, E a bound of rounding errors; the loop ends for every u and ++x does not overflow.", "quantifier": "all means in (0,10), formats, exp functions of bounded error, engine outputs", "why_tests_cant": "The loop without end needs one of the largest few uniform numbers below 1 (probability 2^-53 with double), and a statistical test cannot bound the deviation for every mean.", "anchors": [{"file": "include/boost/random/poisson_distribution.hpp", "symbols": ["poisson_distribution", "init", "use_inversion", "operator()", "invert"]}]}
{"id": "C62", "title": "poisson_distribution by rejection: results are in range and the behaviour is defined", "statement": "When mean >= 10 and 2*mean <= max(), operator() returns a value in [min(), max()] for every engine; no division by 0, no failed assertion in log_factorial and no conversion of a value that does not fit IntType occurs.", "quantifier": "all means, formats, rounding directions, square roots of bounded error, logarithms, engine outputs", "why_tests_cant": "The conversion overflows only if a uniform number is exactly 0 and the previous one is within 2^-30 of a particular value.", "anchors": [{"file": "include/boost/random/poisson_distribution.hpp", "symbols": ["poisson_distribution", "init", "generate", "log_factorial", "operator()", "min", "max"]}]}
{"id": "C63", "title": "poisson_distribution by rejection: the acceptance test is the comparison with the probability of k", "statement": "In generate(), the test with the table of log(k!) (k < 10) and the test with Stirling's series (k >= 10) accept k exactly if the scaled uniform number v is at most exp(-mean) mean^k / k!, up to a relative error that is bounded by the precision of the floating point type.", "quantifier": "all means >= 10, k >= 0, v, formats, rounding directions, logarithms and square roots of bounded relative error", "why_tests_cant": "A wrong digit of a table entry or of a coefficient of the series changes the probabilities by less than any statistical test resolves.", "anchors": [{"file": "include/boost/random/poisson_distribution.hpp", "symbols": ["generate", "log_factorial", "poisson_table"]}]}
{"id": "C64", "title": "exponential_distribution: the ziggurat accepts exactly the points under the curve", "statement": "The 256 layers of the tables have equal areas and corners on exp(-x), and layer 0 has the area of the tail beyond x(1). A point of a layer is accepted if and only if it is below the curve, up to rounding; the shortcuts (left of the next layer, diagonal, tangent) do not change the decision. operator() reads no table outside its bounds and returns a value >= min().", "quantifier": "all layers, points, formats, rounding directions, exp functions of bounded relative error, engines, engine outputs, lambda > 0", "why_tests_cant": "A wrong last digit of one of 514 table entries, or a shortcut on the wrong side of the curve in one layer, changes probabilities by far less than statistical tests resolve.", "anchors": [{"file": "include/boost/random/exponential_distribution.hpp", "symbols": ["exponential_table", "unit_exponential_distribution", "operator()", "f", "exponential_distribution"]}]}
{"id": "C65", "title": "normal_distribution: the ziggurat accepts exactly the points under the curve", "statement": "The 128 layers of the tables have equal areas and corners on exp(-x^2/2). A point of a layer is accepted if and only if it is below the curve, up to rounding, in the convex layers, the concave layers and the layer with the inflection point; results beyond the layers are x(1)+x for exponential x and y with x^2/2 at most y, up to rounding; the sign is that of bit 0 of the bucket. operator() reads no table outside its bounds.", "quantifier": "all layers, points, formats, rounding directions, exp functions of bounded relative error, engines, engine outputs, means, sigmas", "why_tests_cant": "In the layer with the inflection point the chord is above the curve by about 10^-5 of its height only; whether the shortcut is on the right side there cannot be seen in samples.", "anchors": [{"file": "include/boost/random/normal_distribution.hpp", "symbols": ["normal_table", "unit_normal_distribution", "operator()", "f", "generate_tail", "normal_distribution"]}]}
{"id": "C66", "title": "geometric_distribution inverts the distribution function", "statement": "For 0 < p < 1 the result of geometric_distribution::operator() is the k >= 0 with (1-p)^(k+1) <= 1-u <= (1-p)^k up to rounding, and the conversion to IntType is defined. The deprecated class restores its stored value after streaming p().", "quantifier": "all p, uniform numbers, formats, rounding directions, log functions of bounded relative error, engines, integer types", "why_tests_cant": "The undefined conversion needs a small p together with one of the largest uniform numbers; the error of the quotient of two logarithms shows in the boundaries of single values of k only.", "anchors": [{"file": "include/boost/random/geometric_distribution.hpp", "symbols": ["geometric_distribution", "operator()", "init"]}]}
{"id": "C67", "title": "triangle_distribution inverts the distribution function", "statement": "For a <= b <= c, a < c: no square root of a negative number is taken, and the result is the quantile of u (for u <= (b-a)/(c-a)) or of 1+(b-a)/(c-a)-u (otherwise) of the triangle distribution, up to rounding.", "quantifier": "all a, b, c, uniform numbers, formats, rounding directions, sqrt functions of bounded relative error, engines", "why_tests_cant": "The square root of d2*u - d1 is negative or not depending on the rounding of three operations for u next to q1; no sample hits that number.", "anchors": [{"file": "include/boost/random/triangle_distribution.hpp", "symbols": ["triangle_distribution", "operator()", "init"]}]}
{"id": "C68", "title": "weibull_distribution and extreme_value_distribution invert their distribution functions", "statement": "The result of weibull_distribution is >= 0 and is the quantile of 1-(1-u) rounded; that of extreme_value_distribution is the u-quantile, and minus infinity exactly if u = 0; up to rounding.", "quantifier": "all parameters, uniform numbers, formats, rounding directions, log and pow functions of bounded relative error, engines", "why_tests_cant": "u = 0 occurs once in 2^32 or more draws; quantile accuracy for all numbers cannot be seen in samples.", "anchors": [{"file": "include/boost/random/weibull_distribution.hpp", "symbols": ["weibull_distribution", "operator()"]}, {"file": "include/boost/random/extreme_value_distribution.hpp", "symbols": ["extreme_value_distribution", "operator()"]}]}
{"id": "C69", "title": "cauchy_distribution inverts the distribution function", "statement": "The result is the u-quantile of the Cauchy distribution up to rounding; the argument of tan stays strictly between -pi/2 and pi/2.", "quantifier": "all medians and sigmas, uniform numbers, formats, rounding directions, tan functions of bounded relative error, engines", "why_tests_cant": "For float the constant is above pi, and only u = 0 is on the wrong side of the pole.", "anchors": [{"file": "include/boost/random/cauchy_distribution.hpp", "symbols": ["cauchy_distribution", "operator()"]}]}
{"id": "C70", "title": "gamma_distribution samples the gamma distribution", "statement": "For alpha > 1 the Cauchy hat lies above the gamma density, and the acceptance test compares the uniform number with the ratio of both, up to rounding; for alpha < 1 the two parts of the hat are multiples of the density, and the test is the documented one, up to rounding; operator() is defined and its result is > 0.", "quantifier": "all alpha and beta (alpha up to a bound without overflow), formats, rounding directions, exp, log, sqrt, tan and pow functions of bounded error, engines", "why_tests_cant": "The acceptance test and its rounding errors for all real parameters cannot be enumerated; the value 0 needs an engine output of 0.", "anchors": [{"file": "include/boost/random/gamma_distribution.hpp", "symbols": ["gamma_distribution", "init", "operator()"]}]}
{"id": "C71", "title": "beta, chi squared, F and t distributions compute their ratios", "statement": "The results of beta_distribution, chi_squared_distribution, fisher_f_distribution and student_t_distribution are a/(a+b), 2g, (x/m)/(y/n) and z/sqrt(c/n) up to rounding, in the documented range, whichever operand is evaluated first; no division by zero for the documented parameters.", "quantifier": "all parameters, variates, formats, rounding directions, evaluation orders, engines", "why_tests_cant": "Division by zero needs an engine output of 0 in two consecutive variates; the order of evaluation differs between compilers.", "anchors": [{"file": "include/boost/random/beta_distribution.hpp", "symbols": ["beta_distribution", "operator()"]}, {"file": "include/boost/random/chi_squared_distribution.hpp", "symbols": ["chi_squared_distribution", "n", "operator()"]}, {"file": "include/boost/random/fisher_f_distribution.hpp", "symbols": ["fisher_f_distribution", "operator()"]}, {"file": "include/boost/random/student_t_distribution.hpp", "symbols": ["student_t_distribution", "operator()"]}]}
{"id": "C72", "title": "negative_binomial_distribution is a Poisson distribution with gamma distributed mean", "statement": "For k >= 0 and 0 <= p <= 1 the result is a Poisson variate whose mean is a gamma variate with parameters k and (1-p)/p; no assertion of the two distributions fails.", "quantifier": "all k and p, formats, rounding directions, engines", "why_tests_cant": "The boundary parameters and a gamma variate of exactly 0 are not sampled by tests.", "anchors": [{"file": "include/boost/random/negative_binomial_distribution.hpp", "symbols": ["negative_binomial_distribution", "operator()"]}]}
{"id": "C73", "title": "laplace_distribution and lognormal_distribution transform their variates as documented", "statement": "The Laplace distribution function at the result is exp(-x)/2 or 1-exp(-x)/2 with x the exponential variate, each for half of the uniform numbers; the lognormal result is exp of the normal variate, and the deprecated class uses the documented mean and standard deviation; up to rounding.", "quantifier": "all parameters, variates, formats, rounding directions, exp, log and sqrt functions of bounded error", "why_tests_cant": "Accuracy for all parameters; the cancellation in log(1+x) shows only for small sigma/mean.", "anchors": [{"file": "include/boost/random/laplace_distribution.hpp", "symbols": ["laplace_distribution", "operator()"]}, {"file": "include/boost/random/lognormal_distribution.hpp", "symbols": ["lognormal_distribution", "init", "operator()"]}]}
{"id": "C74", "title": "binomial_distribution accepts a number far from the mode by the quotient of the probabilities", "statement": "More than 15 from the mode m, k is accepted exactly if v is at most P(X=k)/P(X=m), up to rounding: the two squeezes and the final test with Stirling's formula agree with the exact quotient, and the table and the series of fc are correct.", "quantifier": "all t, p, k, v, formats, rounding directions, log functions of bounded error", "why_tests_cant": "A wrong squeeze or table digit changes the distribution only in the tails, where tests see no samples.", "anchors": [{"file": "include/boost/random/binomial_distribution.hpp", "symbols": ["generate", "fc", "binomial_table", "init"]}]}
{"id": "C75", "title": "hyperexponential_distribution chooses a phase by the weights and returns an exponential variate of its rate", "statement": "normalize divides the weights by their sum up to rounding, so that they add up to 1, and normalizing again changes nothing; the assertions of the constructors hold; reading leaves as many probabilities as rates; operator() picks a phase with its share of the unit square within rounding, never one of weight zero, and divides an exponential variate by the rate of that phase, so the law is the documented mixture within rounding.", "quantifier": "all weights, rates, formats, rounding directions (the sum: to nearest), engines, draw sequences", "why_tests_cant": "An error in a rare phase or in the last, corrected probability is below what a statistical test can see, and the assertion fails for few lists of weights only.", "anchors": [{"file": "include/boost/random/hyperexponential_distribution.hpp", "symbols": ["normalize", "check_probabilities", "check_rates", "check_params", "param_type", "hyperexponential_distribution", "operator()", "probabilities", "param"]}]}
{"id": "C76", "title": "uniform_on_sphere returns points of the unit sphere", "statement": "The result has dim() elements and does not depend on earlier results. dim() 1: -1 or 1 by the half of [0,1) the uniform number is in. dim() 2: a point of the disc, kept exactly when it is inside, divided by its norm. dim() 3: a point (x,y) of the disc mapped to the height 2(x^2+y^2)-1 with x and y times a common factor. dim() >= 4: as many normal variates divided by their norm. The norm of the result is 1 up to an explicit number of roundings, and there is no undefined behaviour.", "quantifier": "all formats, rounding directions, square roots of bounded error, engines, dimensions, draw sequences", "why_tests_cant": "Points a little off the sphere or an accepted region slightly different from the disc need every pair of draws; dimensions are unbounded.", "anchors": [{"file": "include/boost/random/uniform_on_sphere.hpp", "symbols": ["uniform_on_sphere", "operator()", "param", "min", "max"]}]}
{"id": "C77", "title": "non_central_chi_squared_distribution samples the documented law", "statement": "For k > 1 operator() returns (z + sqrt(lambda))^2 + x for one normal variate z and then one chi squared variate x with k - 1 degrees of freedom, up to an explicit rounding error; for k <= 1 it returns one chi squared variate with k + 2p degrees of freedom, p a Poisson variate of mean lambda/2. Both have the moment generating function of the non-central chi squared distribution. Results are at least 0, and there is no undefined behaviour unless k or lambda is subnormal.", "quantifier": "all formats, rounding directions, mathematical functions of bounded error, engines, parameters, draw sequences", "why_tests_cant": "A wrong number of degrees of freedom or a swapped branch changes the law only statistically; parameters are unbounded.", "anchors": [{"file": "include/boost/random/non_central_chi_squared_distribution.hpp", "symbols": ["non_central_chi_squared_distribution", "operator()", "param_type"]}]}
{"id": "C78", "title": "Parameters made of vectors survive writing and reading", "statement": "read_vector appends exactly the elements that print_vector wrote, after any white space and before any following text, and leaves the stream good behind the closing bracket; it accepts only text in brackets and takes nothing but white space otherwise. The parameters of discrete, piecewise constant, piecewise linear and hyperexponential distributions are restored by reading what was written, and are unchanged when reading fails.", "quantifier": "all vectors, element types whose numbers are read back, integer types up to 64 bits, leading white space, following text, input texts", "why_tests_cant": "Input text and vectors are unbounded; malformed texts that are accepted are rare.", "anchors": [{"file": "include/boost/random/detail/vector_io.hpp", "symbols": ["print_vector", "read_vector"]}, {"file": "include/boost/random/discrete_distribution.hpp", "symbols": ["param_type"]}, {"file": "include/boost/random/piecewise_constant_distribution.hpp", "symbols": ["param_type"]}, {"file": "include/boost/random/piecewise_linear_distribution.hpp", "symbols": ["param_type"]}, {"file": "include/boost/random/hyperexponential_distribution.hpp", "symbols": ["param_type"]}]}
{"id": "C79", "title": "Subtract with carry and the ranlux engines are congruential generators with known periods", "statement": "For every subtract_with_carry engine (integer and floating point) with word size w and lags s < r, b = 2^w and m = b^r - b^s + 1: each call divides a number attached to the state by b modulo m and returns the negative of that number modulo b. The number is 0 or m exactly in the two fixed points of the engine, which seeding never produces and which no other state reaches. Hence the n-th output of each of the ten ranlux typedefs is output p (n / u) + n mod u of a linear congruential generator with modulus m and multiplier 1/b. If m is prime the outputs of the engine repeat after P calls exactly if b^P = 1 modulo m. 2^576 - 2^240 + 1 is prime; ranlux_base, ranlux_base_01 and ranlux24_base repeat after P calls exactly if (2^576 - 2^240)/48 divides P, ranlux48_base exactly if (2^576 - 2^240)/96 divides P, and every period of ranlux3, ranlux4, ranlux3_01, ranlux4_01, ranlux24 and ranlux48 is a multiple of that number, while u times it is a period.", "quantifier": "for all states that are not fixed points, all seeds and all n", "why_tests_cant": "The period is about 10^171, so no run can observe it, and there are 2^576 states; that every state other than the two fixed points lies on a cycle of full length is a fact about the modulus.", "anchors": [{"file": "include/boost/random/ranlux.hpp", "symbols": ["ranlux_base", "ranlux_base_01", "ranlux64_base_01", "ranlux64_base", "ranlux3", "ranlux4", "ranlux3_01", "ranlux4_01", "ranlux64_3_01", "ranlux64_4_01", "ranlux64_3", "ranlux64_4", "ranlux24_base", "ranlux48_base", "ranlux24", "ranlux48"]}, {"file": "include/boost/random/subtract_with_carry.hpp", "symbols": ["subtract_with_carry_engine::operator()", "subtract_with_carry_engine::do_update", "subtract_with_carry_01_engine::operator()", "subtract_with_carry_engine::seed"]}, {"file": "include/boost/random/discard_block.hpp", "symbols": ["discard_block_engine::operator()"]}]}
{"id": "C80", "title": "The congruential engines have their full periods", "statement": "From every x in [1, 2^31 - 2] minstd_rand0 and minstd_rand return to x after n calls exactly if 2^31 - 2 divides n, and within 2^31 - 2 calls they are in every value of [1, 2^31 - 2] exactly once. The same holds for hellekalek1995 with [0, 2^31 - 2] and for the state of rand48 with [0, 2^48 - 1]. The outputs of rand48 repeat after p calls exactly if 2^48 divides p. From every pair of states in range, the pair of ecuyer1988 returns after n calls, and its outputs repeat after n calls, exactly if 2147483562 * 2147483398 / 2 = 2305842648436451838 divides n.", "quantifier": "for all states in range and all numbers of calls", "why_tests_cant": "The periods go up to 2.3 * 10^18 calls, and the claim is about every starting state; a test sees a short piece of one cycle.", "anchors": [{"file": "include/boost/random/linear_congruential.hpp", "symbols": ["minstd_rand0", "minstd_rand", "rand48::operator()", "linear_congruential_engine::operator()"]}, {"file": "include/boost/random/inversive_congruential.hpp", "symbols": ["hellekalek1995", "inversive_congruential_engine::operator()"]}, {"file": "include/boost/random/additive_combine.hpp", "symbols": ["ecuyer1988", "additive_combine_engine::operator()"]}]}
{"id": "C81", "title": "taus88 has period (2^31-1)(2^29-1)(2^28-1)", "statement": "For each of the three linear_feedback_shift registers of taus88 and every 32-bit word whose k leading digits are not all 0, the outputs repeat after P calls exactly if 2^k - 1 divides P (k = 31, 29, 28). From three such words, and from every seed, the outputs of taus88 repeat after P calls exactly if (2^31 - 1)(2^29 - 1)(2^28 - 1) divides P. A register whose k leading digits are 0 returns 0 from the first call on. The word set by the seed need not be visited again.", "quantifier": "for all states with live registers, all seeds and all P", "why_tests_cant": "The period is about 2^88 calls; that no shorter one exists for any of the 2^88 states is a fact about the characteristic polynomials.", "anchors": [{"file": "include/boost/random/taus88.hpp", "symbols": ["taus88"]}, {"file": "include/boost/random/linear_feedback_shift.hpp", "symbols": ["linear_feedback_shift_engine::operator()", "linear_feedback_shift_engine::seed"]}, {"file": "include/boost/random/xor_combine.hpp", "symbols": ["xor_combine_engine::operator()"]}]}

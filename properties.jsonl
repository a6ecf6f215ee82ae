{"id": "C01", "title": "Number::ratio represents num/den", "statement": "For every pair of isize num, den with den != 0, Number::ratio(num, den) returns a number whose Special / Primer / egested Reduction symbols are exactly the documented continued-logarithm representation of the rational num/den. Without overflow checks this includes isize::MIN; with overflow checks an argument equal to isize::MIN panics on negation instead.", "quantifier": "all isize num, den with den != 0, all pointer widths, both overflow-check settings, the whole drained symbol sequence", "why_tests_cant": "There are 2^128 argument pairs and each yields a sequence of up to thousands of symbols; the unit tests check eleven fractions.", "anchors": ["src/lib.rs: Number::ratio", "src/strategy/ratio.rs: new, egest", "src/protocol.rs: Reduction, Primer, Special"]}
{"id": "C02", "title": "Number::ratio_u represents +-num/den and panics exactly on den = 0", "statement": "Number::ratio_u(positive, num, den) panics with 'division by zero' iff den = 0; otherwise it returns a number that drains to the documented representation of +num/den or -num/den according to positive.", "quantifier": "all booleans and all usize num, den, all widths, both overflow-check settings", "why_tests_cant": "Same input space as C01, over the full unsigned range where doubling a numerator could overflow.", "anchors": ["src/lib.rs: Number::ratio_u", "src/strategy/ratio.rs: new, egest"]}
{"id": "C03", "title": "Draining a ratio never panics and ends within a quadratic-in-width number of symbols", "statement": "After Number::ratio or Number::ratio_u succeeded, Clog::egest never panics and never overflows, and returns None after at most (w^2 + 3w)/2 - 2 symbols on a w-bit target (2110 on 64 bits).", "quantifier": "all usize num, den with den != 0, all widths, both overflow-check settings, every number of egest calls", "why_tests_cant": "Tests sample inputs and cannot bound the longest sequence (it grows like the square of the width: up to 2110 symbols on 64 bits).", "anchors": ["src/strategy/ratio.rs: egest", "src/lib.rs: Clog::egest"]}
{"id": "C04", "title": "The representation is canonical", "statement": "Two ratios whose fractions are equal (including unreduced ones and both-negated ones) drain to the same Special / Primer / symbols, and two ratios whose values differ drain to different ones.", "quantifier": "all pairs of fractions", "why_tests_cant": "A property of all pairs of inputs, including unreduced fractions close to the integer limits.", "anchors": ["src/strategy/ratio.rs: new, egest", "src/lib.rs: Number::ratio"]}
{"id": "C05", "title": "Every symbol sequence denotes exactly one rational and is reproduced", "statement": "Any finite list of Reduction symbols is the representation of exactly one rational in (0,1), and any optional Primer put before it denotes exactly one rational outside {-1,0,1}; building that rational with Number::ratio (when numerator and denominator fit) yields back the same primer and symbols.", "quantifier": "all finite symbol lists of any length, all optional primers", "why_tests_cant": "Unbounded domain of sequences; tests decode none.", "anchors": ["src/protocol.rs: Reduction, Primer", "src/strategy/ratio.rs: egest"]}
{"id": "C06", "title": "A symbol sequence is finite iff the value is rational", "statement": "For every real value in (0,1), repeatedly applying the documented Reduction rule reaches one half after finitely many symbols iff the value is rational (the claim of protocol.rs whose proof is left as a TODO).", "quantifier": "all real numbers in (0,1)", "why_tests_cant": "Quantifies over all reals and over infinite sequences.", "anchors": ["src/protocol.rs: Reduction documentation (lines 33-36)"]}
{"id": "C07", "title": "Values and symbol sequences are in one-to-one relation", "statement": "Two different reals in (0,1) have different (finite or infinite) Reduction sequences.", "quantifier": "all pairs of reals in (0,1)", "why_tests_cant": "Needs a contraction argument over infinite sequences.", "anchors": ["src/protocol.rs: Reduction documentation (lines 33-34)"]}
{"id": "C08", "title": "Number::compare on ratios is the order of the rationals", "statement": "For ratios n1/d1 and n2/d2, Number::compare returns Less, Equal or Greater exactly as n1/d1 <, =, > n2/d2, without panicking and without diverging.", "quantifier": "all isize numerators and non-zero denominators that Number::ratio accepts, all widths and overflow-check settings", "why_tests_cant": "tests/compare.rs covers -25..25; the claim covers the whole machine range and both signs of each argument.", "anchors": ["src/compare.rs: compare, compare_clogs", "src/strategy/ratio.rs: egest"]}
{"id": "C09", "title": "Number::compare is the order of the values for every number", "statement": "For any two numbers built by any nesting of ratio, homographic, combine, consume and partial egestion, Number::compare terminates and returns the order of their rational values, unless an integer overflow panics during the comparison. (In a build with overflow checks; the build without them does the same unless the one with them panics in a built-in operator.)", "quantifier": "all pairs of expression trees of any depth, all coefficients, all prior egest histories", "why_tests_cant": "Unbounded expression trees and histories.", "anchors": ["src/compare.rs: compare, compare_hybrid, compare_others, compare_primers, compare_clogs"]}
{"id": "C10", "title": "Number::compare is a total order", "statement": "Comparing is reflexive, antisymmetric (swapping the arguments reverses the answer) and transitive, whenever the comparisons involved return. A comparison that panics does not return the other way round either; it panics, provided each egest of the operands ends.", "quantifier": "all triples of numbers", "why_tests_cant": "Triples of unbounded trees.", "anchors": ["src/compare.rs: compare"]}
{"id": "C11", "title": "Number::homographic computes (nx x + n)/(dx x + d)", "statement": "If dx*x + d != 0 for the rational value of x, Number::homographic(x, nx, n, dx, d) terminates and either panics on integer overflow or returns a number whose value is (nx x + n)/(dx x + d). (In a build with overflow checks; the build without them does the same unless the one with them panics in a built-in operator.)", "quantifier": "all numbers x (any expression tree, any egest history), all isize coefficients", "why_tests_cant": "Tests use coefficients in -6..6 and 11 operands; the intermediate states, poles and zeros crossed depend on every symbol of x.", "anchors": ["src/lib.rs: Number::homographic", "src/strategy/homographic.rs: new, prime, primer_egest, image_extremes", "src/strategy/support.rs: updated_range"]}
{"id": "C12", "title": "Number::combine computes the bilinear quotient", "statement": "If dxy*x*y + dx*x + dy*y + d != 0 for the rational values of x and y, Number::combine terminates and either panics on integer overflow or returns a number whose value is (nxy x y + nx x + ny y + n)/(dxy x y + dx x + dy y + d). (In a build with overflow checks; the build without them does the same unless the one with them panics in a built-in operator.)", "quantifier": "all pairs of numbers, all eight isize coefficients", "why_tests_cant": "Ten-dimensional input space over unbounded operands; tests use coefficients in -1..2.", "anchors": ["src/lib.rs: Number::combine", "src/strategy/combine.rs: new, prime, primer_egest, image_extremes"]}
{"id": "C13", "title": "Addition, subtraction, multiplication and division obey arithmetic", "statement": "The combine instances for x+y, x-y, x*y and x/y (y != 0) give the exact rational result; consequently comparing x+y with y+x, (x+y)-y with x, and x*y with y*x answers Equal when nothing overflows. (In a build with overflow checks; the build without them does the same unless the one with them panics in a built-in operator.)", "quantifier": "all pairs of numbers", "why_tests_cant": "Algebraic laws over all operands.", "anchors": ["src/strategy/combine.rs: tests mul, div, add, sub", "src/lib.rs: Number::combine"]}
{"id": "C14", "title": "Every symbol emitted at any time is right", "statement": "At any point of any history, Clog::egest on a clog of value v returns None iff v = 1/2, Amplify iff v < 1/2 (and leaves 2v), Uncover iff v > 1/2 (and leaves 1/v - 1), or panics on integer overflow. (In a build with overflow checks; the build without them does the same unless the one with them panics in a built-in operator.)", "quantifier": "all expression trees, all interleavings of egest with construction, every symbol", "why_tests_cant": "Egestion is stateful and the state depends on the whole history.", "anchors": ["src/lib.rs: Clog::egest", "src/strategy/homographic.rs: egest", "src/strategy/combine.rs: egest", "src/strategy/ratio.rs: egest"]}
{"id": "C15", "title": "Egestion always terminates", "statement": "Every call of Clog::egest, Number::homographic, Number::combine, Number::compare and Number::consume on numbers built without division by zero returns or panics on overflow: none of the recursions (some marked FIXME) runs forever, and draining any clog ends. (In a build with overflow checks.)", "quantifier": "all expression trees and histories", "why_tests_cant": "Non-termination cannot be observed by a test.", "anchors": ["src/lib.rs: Clog::egest", "src/strategy/homographic.rs: prime, egest (FIXME: recursion)", "src/strategy/combine.rs: prime, egest", "src/compare.rs: compare_clogs", "src/strategy/consume.rs: consume"]}
{"id": "C16", "title": "None is final", "statement": "Once Clog::egest has returned None, every later call also returns None or panics on overflow, and the clog keeps the value one half. (In a build with overflow checks; the build without them does the same unless the one with them panics in a built-in operator.)", "quantifier": "all expression trees, any number of further calls", "why_tests_cant": "Unbounded number of calls after any history; the only test covers 3/6.", "anchors": ["src/lib.rs: Clog::egest", "src/strategy/ratio.rs: tests one_half_is_final"]}
{"id": "C17", "title": "Internal sanity panics are unreachable", "statement": "No sequence of API calls without division by zero reaches panic!(\"logic error\"), an unwrap of a missing strategy, or 'Number is not Other': the only panics are integer overflow. (In a build with overflow checks.)", "quantifier": "all API call sequences", "why_tests_cant": "Absence of a panic over all histories.", "anchors": ["src/strategy/homographic.rs: reduction_egest, reduction_ingest", "src/strategy/combine.rs: reduction_egest, reduction_ingest", "src/lib.rs: unwrap calls"]}
{"id": "C18", "title": "Division by zero in Number::homographic panics", "statement": "If dx*x + d = 0 for the value of x, Number::homographic panics instead of returning a number.", "quantifier": "all numbers x, all coefficients", "why_tests_cant": "The pole may be met only after arbitrarily many symbols of x.", "anchors": ["src/strategy/homographic.rs: new, prime, prime_ingest", "src/strategy/ratio.rs: new (panic division by zero)"]}
{"id": "C19", "title": "Division by zero in Number::combine panics", "statement": "If the denominator of Number::combine vanishes at the values of x and y (for instance x / 0), the call panics instead of returning a number.", "quantifier": "all pairs of numbers, all coefficients", "why_tests_cant": "Same as C18 in two variables.", "anchors": ["src/strategy/combine.rs: new, prime, prime_ingest"]}
{"id": "C20", "title": "Number::consume preserves the value", "statement": "Number::consume(x) = (y, ny, n, dy, d) satisfies (ny*y + n)/(dy*y + d) = x with a non-zero denominator, reading a missing y as one half. (In a build with overflow checks; the build without them does the same unless the one with them panics in a built-in operator.)", "quantifier": "all numbers x", "why_tests_cant": "Depends on every symbol of x; the only general test is #[ignore]d.", "anchors": ["src/lib.rs: Number::consume", "src/strategy/consume.rs: new, consume, amplify_x, uncover_x"]}
{"id": "C21", "title": "Number::consume stops only at one half or near overflow", "statement": "Number::consume returns no leftover number only when x was Special or its symbols were exhausted, with every coefficient below isize::MAX/4 in absolute value; when it returns a leftover, some coefficient has reached isize::MAX/4, and the leftover is x without the symbols consumed.", "quantifier": "all numbers x", "why_tests_cant": "The stopping point depends on the whole symbol sequence.", "anchors": ["src/strategy/consume.rs: consume, is_state_unsafe"]}
{"id": "C22", "title": "Number::consume's unchecked arithmetic never overflows", "statement": "The built-in +, *, unary minus and abs of consume never overflow: all intermediate and returned coefficients stay within isize::MAX/2 in absolute value, so debug and release builds give the same result.", "quantifier": "all numbers x, all widths, both overflow-check settings", "why_tests_cant": "Absence of wrap-around for every input.", "anchors": ["src/strategy/consume.rs: amplify_x, uncover_x, is_state_unsafe"]}
{"id": "C23", "title": "consume followed by ratio rebuilds the number", "statement": "When Number::consume(x) returns no leftover, Number::ratio(nx + 2n, dx + 2d) has the value of x and Number::compare of the two is Equal. (In a build with overflow checks; the build without them does the same unless the one with them panics in a built-in operator.)", "quantifier": "all ratios x whose symbols are exhausted before the coefficients grow to isize::MAX/4", "why_tests_cant": "The unit test t_none checks one fraction.", "anchors": ["src/strategy/consume.rs: tests t_none", "src/lib.rs: Number::consume, Number::ratio"]}
{"id": "C24", "title": "Identity and negation are overflow-free", "statement": "Number::homographic with coefficients (1,0,0,1) and (-1,0,0,1) never panics on any operand that itself reads without a panic, nor does draining the result, which gives the representation of x and of -x.", "quantifier": "all numbers x whose own egestion does not panic, in particular all ratios", "why_tests_cant": "The *_does_not_overflow tests check two extreme operands each.", "anchors": ["src/strategy/homographic.rs: tests unity_does_not_overflow1/2, rec_does_not_overflow1/2"]}
{"id": "C25", "title": "Debug and release builds agree unless the debug build panics on built-in overflow", "statement": "For every API call sequence, the build without overflow checks behaves exactly like the build with overflow checks, unless the latter panics in a built-in operator.", "quantifier": "all API calls on all arguments", "why_tests_cant": "Compares two builds on all inputs.", "anchors": ["Cargo.toml / Dockerfile: cargo test --release", "src/lib.rs: public functions"]}
{"id": "C26", "title": "Release builds never return a silently wrong number", "statement": "In the build without overflow checks, Number::homographic and Number::combine either panic or return the mathematically right number for all isize coefficients.", "quantifier": "all isize coefficients including isize::MIN", "why_tests_cant": "Needs the one coefficient value whose negation overflows.", "anchors": ["src/strategy/homographic.rs: new (nx = -nx), ground, reflect", "src/strategy/combine.rs: reflect_x!, reflect_y!", "src/strategy/support.rs: updated_range"]}
{"id": "C27", "title": "Small coefficients never overflow", "statement": "If the coefficients are bounded by M and the operands and the result have together t symbols, and M*2^t is below an explicit fraction of sqrt(isize::MAX), then constructing and completely draining a homographic or combine never panics, in both builds.", "quantifier": "all operands, all coefficients, meeting the bound", "why_tests_cant": "A quantitative guarantee over all inputs below a bound.", "anchors": ["src/strategy/homographic.rs: checked_* operations", "src/strategy/combine.rs: checked_* operations"]}
{"id": "C28", "title": "Any API history refines rational arithmetic", "statement": "A client that performs any sequence of ratio, ratio_u, homographic, combine, compare, consume, egest and re-wrapping of clogs in Number::Other observes exactly what an abstract machine over rationals would show, until the first overflow panic or division by zero. (In a build with overflow checks.)", "quantifier": "all finite sequences of API calls", "why_tests_cant": "All histories.", "anchors": ["src/lib.rs: Number, Clog"]}
{"id": "C29", "title": "unwrap_special and unwrap_other", "statement": "unwrap_special returns the content of a Special and panics on anything else; unwrap_other returns primer and clog of an Other and panics on anything else; a number is Special iff its value is -1, 0 or 1. (In a build with overflow checks; the build without them does the same unless the one with them panics in a built-in operator.)", "quantifier": "all numbers built through the API without division by zero", "why_tests_cant": "The 'iff value is special' part depends on every constructor.", "anchors": ["src/lib.rs: Number::unwrap_special, Number::unwrap_other"]}
{"id": "C30", "title": "The printed form determines the number", "statement": "The text printed by the demo's logn for a number ends, never panics for ratios, and two numbers print the same text iff they have the same value.", "quantifier": "all numbers (ratios for the no-panic part)", "why_tests_cant": "All pairs of numbers.", "anchors": ["src/main.rs: logn, logc, logs, logp, logr"]}
{"id": "C31", "title": "Primer and Special are determined by the interval of the value", "statement": "For any number built through the API: Special iff the value is -1, 0 or 1; Ground iff value < -1; Reflect iff -1 < value < 0; no primer iff 0 < value < 1; Turn iff value > 1. (In a build with overflow checks; the build without them does the same unless the one with them panics in a built-in operator.)", "quantifier": "all numbers returned by ratio, homographic, combine", "why_tests_cant": "The choice is made from interval bounds that depend on the symbols of the operands.", "anchors": ["src/strategy/ratio.rs: new", "src/strategy/homographic.rs: primer_egest", "src/strategy/combine.rs: primer_egest"]}
{"id": "C32", "title": "Comparing numbers with different primers cannot panic", "statement": "When two numbers have different primers (for instance a negative and a positive one) Number::compare answers without evaluating their symbols, hence without panicking.", "quantifier": "all pairs of numbers with different primers", "why_tests_cant": "Requires a number whose symbols overflow.", "anchors": ["src/compare.rs: compare_others (Ordering::then)"]}
{"id": "C33", "title": "Results depend only on operand values", "statement": "Replacing an operand of homographic, combine, compare or consume by another number of the same value (built in any other way) does not change the symbols of the result, unless something overflows. (In a build with overflow checks; the build without them does the same unless the one with them panics in a built-in operator.)", "quantifier": "all pairs of numbers of equal value, all contexts", "why_tests_cant": "Pairs of unbounded trees.", "anchors": ["src/lib.rs: public functions"]}
{"id": "C34", "title": "The reciprocal is overflow-free", "statement": "Number::homographic with coefficients (0,1,1,0) never panics on any non-zero operand that itself reads without a panic, and the result drains to the representation of 1/x.", "quantifier": "all numbers x whose own egestion does not panic, in particular all ratios", "why_tests_cant": "The failing operands are those between -2^-(w-2) and 0 on a w-bit target: a sliver of the input space, reached only through ratio_u or close to the integer limits.", "anchors": ["src/strategy/homographic.rs: primer_egest, egest"]}
{"id": "C35", "title": "Every two symbols at least halve the uncertainty", "statement": "The values in (0,1) whose symbol sequences begin with the same n symbols lie in an interval no wider than 2^-(n div 2): a client that reads symbols learns the value to any precision it likes.", "quantifier": "all real numbers in (0,1), all prefix lengths", "why_tests_cant": "Quantifies over pairs of reals and unbounded prefixes.", "anchors": ["src/protocol.rs: Reduction documentation"]}
{"id": "C36", "title": "The demonstration program prints the right 37 lines", "statement": "The main program ends without a panic on every pointer width and with either overflow-check setting, and each of its 37 lines is its label followed by the documented representation of the number that label announces.", "quantifier": "all widths, both overflow-check settings", "why_tests_cant": "A test run sees one width and one setting, and there is no reference output to compare with.", "anchors": ["src/main.rs: main, logn, logc, logs, logp, logr"]}
{"id": "C37", "title": "The sanity panics are unreachable in release builds too", "statement": "In the build without overflow checks, too, no API call without division by zero reaches panic!(\"logic error\") or another sanity panic: the only panics are failed checked operations. (False: a coefficient that wraps around can take a homographic state out of (0,1). It holds wherever the build with overflow checks does not panic in a built-in operator.)", "quantifier": "all numbers built through the API, all isize coefficients, all widths", "why_tests_cant": "Tests run with overflow checks on; the failing arguments are near the integer limits.", "anchors": ["src/strategy/homographic.rs: reduction_egest, egest", "src/strategy/combine.rs: reduction_egest, egest"]}
{"id": "C38", "title": "Calls end, division by zero included", "statement": "Every call of homographic, combine, compare and consume ends, whatever the coefficients: also with zero denominators, in either build and after wrap-around. (False for operands that are themselves the result of a division by zero. It holds for operands that can be read to an end, and every egest on the results ends too.)", "quantifier": "all operands that can be read to an end, all coefficients, both builds, all widths", "why_tests_cant": "Termination of unbounded recursions; a test can only time out.", "anchors": ["src/strategy/homographic.rs: prime, egest (recursive)", "src/strategy/combine.rs: prime, egest (recursive)", "src/compare.rs: compare_clogs", "src/lib.rs: homographic, combine, compare, consume"]}
{"id": "C39", "title": "Number::consume reads boundedly many symbols", "statement": "Number::consume reads at most (46w - 87)/19 symbols of its operand on a w-bit target (34, 72 and 150 symbols), one more than it reads of some ratio, whatever the operand, in any build; so it ends whenever each egest of the operand does, even on endless numbers. When it stops before the end it has read at least w - 3 symbols, and of 1 / isize::MAX it reads just so many.", "quantifier": "all clogs, also those that give infinitely many symbols, both builds, all widths", "why_tests_cant": "Quantifies over endless numbers.", "anchors": ["src/strategy/consume.rs: consume, is_state_unsafe"]}
{"id": "C40", "title": "The library writes nothing to standard output", "statement": "No public call writes to standard output. (False: Homographic::prime and Homographic::egest print their coefficients. It holds for ratio, ratio_u, and for compare, consume and egest on ratios; and whatever is written does not change a result.)", "quantifier": "all numbers, all coefficients, both builds, all widths", "why_tests_cant": "Test harnesses capture standard output.", "anchors": ["src/strategy/homographic.rs: prime, egest (println!)"]}
{"id": "C41", "title": "What Number::consume leaves can be given back to Number::homographic", "statement": "When Number::consume returns a leftover y and coefficients, Number::homographic(y, nx, n, dx, d) returns a number equal to the one consumed. (False: for every number between 2^-(w-6) and 2^(w-6) in size that leaves a leftover, on a w-bit target, the call panics on overflow, since consume stops at a quarter of isize::MAX and homographic multiplies the coefficients with each other. If the call returns, the result is right.)", "quantifier": "all numbers built through the API that leave a leftover, both builds for ratios, all widths", "why_tests_cant": "Only numbers with large numerators and denominators leave a leftover.", "anchors": ["src/lib.rs: consume, homographic", "src/strategy/consume.rs: is_state_unsafe", "src/strategy/support.rs: updated_range, compare_reduce"]}
{"id": "C42", "title": "Draining ends in release builds too", "statement": "In the build without overflow checks, too, draining any clog of a number built without division by zero ends. (False: with x = -1/2, y = 1/3 and isize::MIN among the coefficients, Number::combine returns a number that gives Amplify for ever, although the denominator is positive. It holds unless the build with checks panics in a built-in operator; and results of Number::homographic with a non-zero determinant, over any operand that can be read to an end, can be read to an end in either build if the call itself does not overflow in a built-in operator; likewise sums, differences, products and quotients by anything but zero, and any other result of Number::combine whose numerator and denominator are not proportional, also with the value of either operand put in.)", "quantifier": "all numbers built through the API, all isize coefficients, both builds, all widths", "why_tests_cant": "An endless number can only be observed as a test that does not come back; tests run with overflow checks on.", "anchors": ["src/strategy/combine.rs: absorb_primer_x, as_homographic", "src/strategy/homographic.rs: egest, reduction_egest"]}
{"id": "C43", "title": "A result of Number::homographic gives boundedly many symbols", "statement": "On a w-bit target, if the operand gives at most N symbols and the determinant of the coefficients is not zero, then the result of Number::homographic gives at most (2(N+1)(16w+5) + 3(w^2+3w-4))/6 symbols, in either build, provided the call itself does not overflow in a built-in operator.", "quantifier": "all operands that give at most N symbols, all N, all isize coefficients, both builds, all widths", "why_tests_cant": "A bound over all operands and coefficients.", "anchors": ["src/strategy/homographic.rs: egest, reduction_egest, ingest_amplify, ingest_uncover"]}
{"id": "C44", "title": "A caught panic does not spoil the clog", "statement": "If Clog::egest panics and the client catches the panic, the clog is still the number it was: another call of egest panics again or gives the symbol that was due. (False: a symbol of the operand is taken before the coefficients are updated, one field after the other, and the update can overflow half-way; on every width a clog near 0 then gives Uncover. What remains true, whatever is caught: the fields stay machine integers, no call ever panics by an unwrap of None or of the wrong kind of number, and the clogs of ratios never panic.)", "quantifier": "all clogs a client can hold after catching any number of panics, both builds, all widths", "why_tests_cant": "Tests stop at a panic; the failing coefficients are above a quarter of the integer range.", "anchors": ["src/strategy/homographic.rs: ingest_amplify, ingest_uncover, reduction_ingest", "src/strategy/combine.rs: reduction_ingest, shutdown_x, shutdown_y", "src/lib.rs: Clog::egest"]}
{"id": "C45", "title": "The recursion is no deeper than the operands are long", "statement": "egest and prime call themselves (marked FIXME: recursion) and egest of the operands. If x gives at most N symbols and each egest on it nests at most D deep, Number::homographic on x nests at most N + D + 1 deep and every later egest on its result at most N + D + 2; Number::combine at most max(N + D) + 2 over its operands and every later egest on its result at most max(N + D) + 3; Number::compare and Number::consume as deep as their operands. So d levels of operations above ratios, whose operands give at most N symbols each, never nest deeper than d(N + 3) + 2. After a division by zero there is no bound.", "quantifier": "all operands and coefficients, both builds, all widths, any number of levels", "why_tests_cant": "Running out of stack shows only with long operands or many levels, and aborts the test process.", "anchors": ["src/strategy/homographic.rs: prime, egest", "src/strategy/combine.rs: prime, egest", "src/lib.rs: Clog::egest"]}
{"id": "C46", "title": "A result of Number::combine gives boundedly many symbols", "statement": "On a w-bit target, if the operands give at most N symbols each, then their sum, difference, product and quotient (by anything but zero), and any other result of Number::combine whose numerator and denominator are not proportional, also with the value of either operand put in, give at most (2(N+2)(16w+5) + 3(w^2+3w-4))/6 symbols, in either build, provided the call itself does not overflow in a built-in operator. A division by zero gives infinitely many.", "quantifier": "all operands that give at most N symbols, all N, all isize coefficients, both builds, all widths", "why_tests_cant": "A bound over all operands and coefficients.", "anchors": ["src/strategy/combine.rs: egest, reduction_egest, reduction_ingest", "src/strategy/homographic.rs: egest, reduction_egest"]}
{"id": "C47", "title": "Reading never makes a number bigger", "statement": "A clog is a tree of strategies of fixed size, each in a box of its own. A call of Clog::egest, whether it returns or panics and is caught, never leaves more strategies than there were; neither does Number::consume. Number::homographic and Number::combine (so all arithmetic) add at most one to those of the operands. So whatever a client does, a number holds at most one strategy per constructing call that went into it.", "quantifier": "all clogs and numbers, all coefficients, all sequences of calls, both builds, all widths", "why_tests_cant": "A bound over all numbers and all sequences of calls, caught panics included.", "anchors": ["src/lib.rs: Clog::egest, Number::homographic, Number::combine, Number::consume", "src/strategy/homographic.rs: egest", "src/strategy/combine.rs: egest, shutdown_x, shutdown_y"]}
{"id": "C48", "title": "The work is linear in the symbols that pass between the parts of a number", "statement": "Count the activations of Clog::egest, of the strategies' egest and of prime. If x gives at most N symbols and reading all of it is at most W activations, then calling Number::homographic on it and reading all M symbols of the result are at most N + W + 2M + 5 together; for Number::combine N1 + W1 + N2 + W2 + 2M + 8; a ratio costs 2M + 2. Comparing costs at most what reading both costs, consuming what reading costs. So n constructing calls of numbers with at most N symbols each, together with all the reading, are at most n(4N + 8) activations: nothing is computed twice.", "quantifier": "all operands, all coefficients, all numbers of operations, whatever the calls come to, both builds, all widths", "why_tests_cant": "A bound over all expressions; on the small expressions of a test even an exponential cost goes unnoticed.", "anchors": ["src/lib.rs: Clog::egest, Number::homographic, Number::combine, Number::consume", "src/strategy/homographic.rs: egest, prime", "src/strategy/combine.rs: egest, prime", "src/compare.rs: compare_clogs"]}
{"id": "C49", "title": "Operands are read only as far as needed, and what is read is enough", "statement": "Reading a symbol from the result of Number::homographic makes it read a symbol of its operand only if what it has read of the operand so far leaves open which of the two symbols comes next; and every operand that begins with what has been read has a result that begins with what has been given, for Number::homographic and Number::combine alike. Number::homographic itself, which must settle how the result opens, reads a symbol only if the opening is still open, provided the denominator is positive at the operand. Once an operand of Number::combine has ended, the result reads the other operand only as far as needed too. It is not so where the denominator is negative (1/(-x) reads on although it can only open with Ground), nor for Number::combine while neither operand has ended.", "quantifier": "all operands with a value, any amount already read; all coefficients for which the result depends on the operands (that what is read is enough: all coefficients with a denominator that is not 0); overflow checks on; all widths", "why_tests_cant": "The statement compares the state with all other operands that begin the same way; a test sees one operand.", "anchors": ["src/strategy/homographic.rs: egest, prime, reduction_egest, primer_egest", "src/strategy/combine.rs: egest, prime", "src/protocol.rs: Reduction, Primer"]}
{"id": "C50", "title": "Arithmetic on small fractions never overflows", "statement": "Number::homographic of the fraction p/q, with coefficients of at most M, returns a number that can be read completely if 16*(M*(|p|+q)*2^A)^2 is at most isize::MAX, where A counts the Amplify symbols of the operand; Number::combine of p/q and r/s likewise with M*(|p|+q)*(|r|+s)*2^(A+B); whatever the size of the result and in both builds. A fraction with parts of at most 2^m amplifies at most m(m-1)/2 times, so the four operations never overflow on ratios with parts up to 16 on 64-bit targets (4 on 32-bit, 2 on 16-bit). Small parts and coefficients without the count of amplifications are not enough: 3*(1/1023) cannot be read on a 64-bit target.", "quantifier": "all operands built without overflow, in whatever way; all coefficients; both builds; all widths", "why_tests_cant": "The bound is about all fractions below a size on all widths; the failures (1/1023 but not 1/511) are far from isize::MAX, where tests would not look.", "anchors": ["src/strategy/homographic.rs: reduction_ingest, prime_ingest, egest", "src/strategy/combine.rs: reduction_ingest, prime_ingest, egest, value_at_end_of_x", "src/strategy/ratio.rs: new"]}
{"id": "C51", "title": "The debugging lines of a homographic are right", "statement": "Number::homographic, and every egest on its result, writes one line of four integers a b c e before each symbol it reads of the operand and one more before it answers. Each line is right: if w is what is still to come of the operand, then (a w + b)/(c w + e) is the value (before the primer is out), or what is still to come of the result after the primer and the symbols given so far. In between come only the lines that reading the operand writes itself.", "quantifier": "all operands, built in any way, that are not specials; all coefficients (for egest: not proportional); calls that return and calls that panic; builds with overflow checks", "why_tests_cant": "A line is right for every value that the rest of the operand may have, not only for the one it has; a test would compare printed text for single operands.", "anchors": ["src/strategy/homographic.rs: prime (println!), egest (println!)"]}
{"id": "C52", "title": "What compare and consume answer is decided by what they read", "statement": "A comparison of two numbers that returns has read the same symbols of both and then one more of each, which differ or are both the end; its answer is the order of any two values that begin with what was read. Against a special number nothing is read and the primer decides. With equal primers and equal symbols so far both orders are still possible. When consume returns, (nx w + n)/(dx w + d) is the value of the primer and the symbols taken, followed by w, for every w in (0, 1); what is left is the rest of the clog, or the clog has ended.", "quantifier": "all numbers that are not specials (and all specials), whether or not their clogs stand for a value; all calls that return; debug and release builds", "why_tests_cant": "The answer is right for all continuations of what was read; a test has one continuation for each operand.", "anchors": ["src/compare.rs: compare, compare_hybrid, compare_others, compare_clogs", "src/lib.rs: Number::consume", "src/strategy/consume.rs: new, consume"]}
{"id": "C53", "title": "How soon a homographic gives its next symbol", "statement": "When the result of Number::homographic is asked for its next symbol, at most 2j symbols are read of the operand if |nx d - n dx| <= 2^j |z - 1/2| min(|d|, |d + dx|)^2, where nx, n, dx, d are the coefficients held at that time and z is what is still to come of the result: the number of symbols read is logarithmic in the distance of z from one half. The end is given only when the operand has ended.", "quantifier": "all operands, built in any way, that are not specials; all coefficients that are not proportional; every symbol of the result; builds with overflow checks", "why_tests_cant": "A bound on the work before an answer for every value near the threshold, however near.", "anchors": ["src/strategy/homographic.rs: egest, reduction_egest, reduction_ingest"]}
{"id": "C54", "title": "A build for a wider machine gives the same answers", "statement": "Whatever a call of ratio, homographic, combine, compare, consume or egest does in a build with overflow checks, except panicking by overflow, it does in every build for a machine with a pointer at least as wide: the same answer, the same other panic, or running on as well. So every number that can be built on the narrow machine can be built on the wide one, with the same value. (False for consume, which stops as soon as its coefficients get large and so may leave a rest on the narrow machine and none on the wide one. It holds for consume where nothing is left, and for all the others.)", "quantifier": "all widths, all arguments that fit the narrow machine, all fuels, all numbers and clogs (well formed or not); whole histories", "why_tests_cant": "The tests run on one machine; nothing compares widths.", "anchors": ["src/strategy/ratio.rs: new_i, egest", "src/strategy/homographic.rs: new, egest", "src/strategy/combine.rs: new, egest", "src/compare.rs: compare", "src/strategy/consume.rs: is_state_unsafe", "src/strategy/support.rs: checked arithmetic"]}
{"id": "C55", "title": "Number::consume pins the number down to 4/isize::MAX", "statement": "When Number::consume of a number x with |x| < 1 leaves something unread, x lies strictly between n/d and (nx+n)/(dx+d), and these two fractions are at most 1/(isize::MAX/4) apart; if |x| > 1, so it is for 1/x with d/n and (dx+d)/(nx+n).", "quantifier": "all numbers built in any way, all widths, both builds (without checks: where the build with checks does not panic in a built-in operator)", "why_tests_cant": "An error bound over all numbers; the tests look at consumed fractions that are exact.", "anchors": ["src/strategy/consume.rs: consume, amplify_x, uncover_x, is_state_unsafe", "src/lib.rs: Number::consume"]}
{"id": "C56", "title": "Number::consume reads fractions with small parts to the end", "statement": "Let num/den be a fraction with den > 0, M the greater of |num| and den, and t the number of Amplify symbols in its sequence. If M*2^t < 2*(isize::MAX/4), Number::consume of a number with that value returns no leftover, and coefficients whose value at 1/2 is exactly num/den. So it is for every Number::ratio with both parts at most 16 on 16 bits, 128 on 32 bits and 1024 on 64 bits; 1/31, 1/255 and 1/2047 are left in part unread.", "quantifier": "all numbers built in any way, all parts, all widths, both builds", "why_tests_cant": "The coefficients keep the powers of two of the Amplify symbols, so a tiny fraction can exceed the limit; the tests consume a handful of fractions.", "anchors": ["src/strategy/consume.rs: consume, amplify_x, uncover_x, is_state_unsafe", "src/lib.rs: Number::consume, Number::ratio"]}
{"id": "C57", "title": "How soon a combine gives its next symbol", "statement": "For the next symbol of a result of Number::combine the same number of symbols is read of both operands, until the symbol is given or one of the operands has ended. Let z be what is to come of the result, and let all the denominators dxy*x*y + dx*x + dy*y + d for x and y in {0,1} (with the coefficients at that time) be between L > 0 and H in size; then at most 2j symbols are read of each operand if 2*H^2 <= 2^j * |z - 1/2| * L^2.", "quantifier": "all numbers built in any way, all coefficients, after any symbols, all widths (build with overflow checks)", "why_tests_cant": "A logarithmic bound over all operands and coefficients; the tests only look at the symbols.", "anchors": ["src/strategy/combine.rs: egest, reduction_egest, reduction_ingest, image_extremes", "src/strategy/support.rs: updated_range"]}
{"id": "C58", "title": "Comparing numbers that are apart reads few symbols", "statement": "A comparison that returns has read some symbols that both numbers share, and then one more of each. If the magnitudes of the two numbers (the size, or its reciprocal for numbers above one in size) are at least 2^-j apart, fewer than 2j symbols are shared. Nothing further is read: the comparison returns whatever would come of reading on, be it a panic or a call that never ends.", "quantifier": "all numbers that are not specials, built in any way, all primers, all widths (the bound: build with overflow checks)", "why_tests_cant": "A logarithmic bound over all pairs of numbers; the tests only look at the answers.", "anchors": ["src/compare.rs: compare_others, compare_clogs", "src/lib.rs: Number::compare"]}
{"id": "C59", "title": "Formulas with small fractions throughout never overflow", "statement": "Let a formula be built from ratios and special numbers by homographic and combine, to any depth. If all ratios in it and all operands in it are worth fractions with parts of at most 2^m, the coefficients are at most M, nothing is divided by zero, and 16 * M^2 * 2^(4(m+1) + 2m(m-1)) is at most isize::MAX, then evaluating it returns a number that can be read to its end and gives what the formula is worth, and comparing two such formulas returns the order of what they are worth. On a 64-bit target parts up to 16 and coefficients up to 181 will do.", "quantifier": "all formulas of any depth and size, both builds, all widths", "why_tests_cant": "All formulas of any size.", "anchors": ["src/lib.rs: Number::ratio, Number::homographic, Number::combine, Number::compare", "src/strategy/homographic.rs: new, egest", "src/strategy/combine.rs: new, egest"]}
{"id": "C60", "title": "The operands of a combine are never shared, and nothing leaks", "statement": "Model the Rc handles of Combine with their reference counts, on a heap where boxes are created, cloned, overwritten, taken apart and freed. Then for every client of the public API, which may also drop what it holds at any time: Rc::get_mut and Rc::try_unwrap never meet a second handle (so their unwraps never panic), no freed box is ever used, and the client sees the same and the run ends the same way as when every operand is simply owned. After every call that returns, each box is reached from exactly one place and has count one, and no other box is left; in particular a client that has given away or dropped everything leaves an empty heap.", "quantifier": "all clients (lists of API calls and drops), all fuels, both builds, all widths", "why_tests_cant": "All sequences of calls; leaks and sharing are not visible in results.", "anchors": ["src/strategy/combine.rs:620-621, 825, 935-957, 1211-1232, 1235, 1254", "src/lib.rs:47-55"]}
{"id": "C61", "title": "When panics are caught, operands are still never shared, and nothing leaks", "statement": "Take C60's heap with the reference counts of Combine, and let a panic unwind: what the calls being left own is dropped, and a clog lent to egest keeps the fields that it has. A client of the public API catches every panic and goes on with all that it still holds, and may drop what it holds at any time. Then Rc::get_mut and Rc::try_unwrap never meet a second handle, no freed box is used, and no drop fails while unwinding; the client sees what it sees when every operand is simply owned. After every call, returned or caught, each box is reached from exactly one place and has count one and no other box is left, so a client that has given away, dropped or lost everything leaves an empty heap. Up to the first panic it is the client of C60. All it holds is held in the sense of C44, and it never catches an unwrap of None.", "quantifier": "all clients (lists of API calls and drops) that catch every panic, all fuels, both builds, all widths", "why_tests_cant": "All sequences of calls and panics; leaks and sharing are not visible in results.", "anchors": ["src/strategy/combine.rs:620-621, 825, 935-957, 1211-1232, 1234-1274", "src/lib.rs:47-55", "src/strategy/homographic.rs:1059-1077"]}
{"id": "C62", "title": "The integration tests of the project pass, and see what they are meant to see", "statement": "The three tests of tests/compare.rs return without a failed assertion, a panic or an overflow, in debug and release builds for 32 and 64 bits, with the limits that they have (25, 6 and 2). So they do with any larger limits that leave room: test_compare with a limit r where 2r^2 is at most isize::MAX, compare_homographics with r up to 2^m where 16 r^2 2^(2(m+1)+m(m-1)) is, compare_combines where 2^20 r^2 is. A test that passes has really compared every case that its loops run over, the skipped ones excepted. The reference implementation in the tests is right: reference_compare is the order of the rationals; expected_homographic and expected_combine give the value of the documented fraction, and (1, 0) exactly when its denominator is zero.", "quantifier": "all loop limits within the stated room, both builds, 32 and 64 bits (the parametric statements: all widths)", "why_tests_cant": "The tests run with one set of limits on one machine, and cannot test their own reference.", "anchors": ["tests/compare.rs:24-289"]}
{"id": "C63", "title": "How much work a formula is can be told from the sizes of its values alone", "statement": "In a build with overflow checks: a number worth a fraction whose numerator and denominator are at most 2^m gives at most N symbols, where 2N = m^2 + 3m - 4, however it was made. A formula (nested calls of ratio, homographic and combine) in which every part is worth such a fraction is evaluated, and its value read to the end, in at most c(4N + 8) activations of the recursive functions, where c is the number of calls in it; also if a call panics on the way. So is the comparison of two formulas. For single operations on machine fractions with any machine integers as coefficients the bound depends on the width only: on 64 bits a homographic and all of its result are at most 22744 activations, a combine 49524, a comparison 8312 (5736, 12468, 2104 on 32 bits).", "quantifier": "all formulas, all m, all machine fractions and coefficients, all widths, builds with overflow checks", "why_tests_cant": "Tests time a handful of operations; a bound for all formulas and all machine fractions cannot be sampled.", "anchors": ["src/lib.rs:86-174", "src/lib.rs:40-57", "src/strategy/homographic.rs:1079-1099", "src/strategy/homographic.rs:1138-1153", "src/strategy/combine.rs:861-922", "src/strategy/combine.rs:1261-1295"]}
{"id": "C64", "title": "What Number::consume returns is a fraction in lowest terms, but for factors of two", "statement": "Let Number::consume return nx, n, dx, d. The greatest common divisor of nx + 2n and dx + 2d is a power of two; so is that of n and d, and that of nx + n and dx + d (the two ends of the range the number is pinned down to). If nothing is left unread, nx + 2n and dx + 2d are machine integers, dx + 2d > 0, and they are the numerator and the denominator of the number in lowest terms, times the same power of two. So a client that evaluates a formula with small fractions throughout (as in C59, the value included), consumes the result and halves both parts as long as both are even, gets the value of the formula in lowest terms.", "quantifier": "all numbers (the common divisors: well formed or not), all formulas with parts of at most 2^m and coefficients of at most M, all widths, both builds (the numerator and denominator without overflow checks: where the build with them does not panic in a built-in operator)", "why_tests_cant": "Tests compare the quotient of a few results; that no odd factor ever remains is a statement about all sequences of symbols.", "anchors": ["src/strategy/consume.rs: new, consume, amplify_x, uncover_x, is_state_unsafe", "src/lib.rs: Number::consume"]}
{"id": "C65", "title": "Multiplying and dividing by a power of two, and adding one, do not overflow", "statement": "The names of the tests *_does_not_overflow* claim this of doubling, halving, x + 1, 1/(x + 1), (x + 1)/x and x/(x + 1). For every operand that can be read to its end, however it was made, and of whatever size its parts, the result is right and can be read to its end without any panic: 2^e x if |x| <= 2^-e or |x| >= 1; x/2^e if |x| <= 1 or |x| >= 2^e (2^e any power of two that is an isize); x + 1 and 1/(x + 1) if 0 <= x <= 1; (x + 1)/x and x/(x + 1) if x >= 1; x - 1 and 1/(x - 1) if -1 <= x <= 0. Elsewhere the claim is false for small operands: with n = 16, 64, 256 on targets of 16, 32, 64 bits, doubling (n+1)/2n, halving 2n/(n+1), (n-1) + 1, 1/((n-1) + 1), the two others at 1/(n-1), and the two with x - 1 at -(n-1), panic in a checked operation, in the call or while the result is read; so 255 + 1 overflows on a 64-bit target. No smaller natural number fails to be increased by one. The four tests that are ignored do fail, on every width.", "quantifier": "all numbers that can be read to their end, all exponents, all widths, both builds", "why_tests_cant": "The tests try isize::max_value() and its inverse only; those that fail are ignored, and the smallest failing operand is not known from them.", "anchors": ["src/strategy/homographic.rs:651-829", "src/strategy/homographic.rs:846-898", "src/strategy/homographic.rs:1079-1099", "src/strategy/homographic.rs:1138-1153", "src/lib.rs:109-131"]}
{"id": "C66", "title": "The unit tests in the sources pass on every width and in both builds, and their tables are right", "statement": "The 77 unit tests that cargo test runs (with tables of 121, 234 and 473 cases, in compare.rs, homographic.rs and combine.rs) pass in debug and release builds for 16, 32 and 64 bits, with one exception: consume.rs' t_none fails on 16 bits, as consume stops before the end of 2953/7829. The five tests that are marked #[ignore] stop with an integer overflow on every width and in both builds. The tables of expected results are right: orders, values of the documented formulas, divisions by zero.", "quantifier": "all widths, both builds, all cases of the tables", "why_tests_cant": "Tests run on one machine and in one build at a time, the ignored ones not at all, and they do not test their own tables.", "anchors": ["src/compare.rs:77-244", "src/strategy/homographic.rs:83-829", "src/strategy/combine.rs:33-617", "src/strategy/ratio.rs:22-183", "src/strategy/consume.rs:30-74"]}
{"id": "C67", "title": "Zero, one and minus one as operands: x + 0, 0 + x, x - 0, 0 - x, x * 1, x * -1, x * 0 and x / 1 never overflow", "statement": "Let x be a number that can be read to its end, however it was made. x + 0, 0 + x, x - 0, x * 1, 1 * x and x / 1 (combine with these coefficients) return a number that gives the same primer and the same symbols as x; 0 - x, x * -1 and -1 * x one that represents the opposite; none panics, and neither does reading the result. x * 0 and 0 * x return Special::Zero at once, whatever x is. For any eight coefficients: combine with a special operand (-1, 0, 1) is homographic of the other operand with the four sums of coefficients that remain, provided that these are machine integers, and panics in a checked operation otherwise.", "quantifier": "all numbers (the first three claims: those that can be read to their end), all coefficients, all widths, both builds", "why_tests_cant": "Tests try a table of small operands; that no operand at all overflows needs a proof about all of them.", "anchors": ["src/strategy/combine.rs:675-861", "src/strategy/homographic.rs:846-898", "src/lib.rs:133-174"]}
{"id": "C68", "title": "Dividing by minus one, and dividing one, minus one or zero by a number", "statement": "Let x be a number that can be read to its end. x / -1 is right and can be read to its end without a panic if |x| <= 2^(w-2); if x > 2^(w-2) it panics in a checked operation, and if x < -2^(w-2), in builds with overflow checks, in a built-in one. 1 / x and -1 / x are right and can be read if x > 0 or x <= -2^-(w-2); for x between -2^-(w-2) and zero 1 / x panics in a checked operation and -1 / x, in builds with overflow checks, in a built-in one. Dividing by zero panics as documented. 0 / x is zero or an integer overflow. The plain claim, that these divisions do not overflow, is refuted on every width and build: isize::MAX / -1 and -isize::MAX / -1 overflow, though the quotients are machine integers; so do -1 / (-1/isize::MAX), and 0 / 4095 on 64 bits (511 on 32, 63 on 16).", "quantifier": "all numbers that can be read to their end, all widths, both builds (0 / x: builds with overflow checks)", "why_tests_cant": "The limits of the operands are far beyond the table of the tests, and depend on the width.", "anchors": ["src/strategy/combine.rs:675-861", "src/strategy/homographic.rs:846-898", "src/lib.rs:133-174"]}
{"id": "C69", "title": "What is read off the operands decides how every call comes out, overflow included", "statement": "Call two numbers the same if they have the same Special or primer and egest gives the same symbols on both, up to the same end or the same panic. Then homographic, combine, compare and consume come out the same on the same operands: they panic with the same panic, or return the same number, ordering or coefficients, or never end on either. So a part of a formula may be replaced by one that comes out the same; a fraction may be written in any terms, a/b or c/d with a/b = c/d, without making any formula overflow that did not (in builds with overflow checks: unless one of the four is isize::MIN); and e + 0, 0 + e, e - 0, e * 1, 1 * e, e / 1 may stand for e anywhere. Numbers that can be read to the same end are the same. 1x + 0 and -(-x) are the same as x, whatever x is.", "quantifier": "all numbers (well formed or not), all coefficients, all formulas, all widths, both builds", "why_tests_cant": "A test compares results of particular calls; that nothing but the symbols matters is about all ways of making a number, and all contexts.", "anchors": ["src/lib.rs:38-55", "src/lib.rs:109-192", "src/strategy/homographic.rs:840-939", "src/strategy/homographic.rs:1059-1153", "src/strategy/combine.rs:675-972", "src/strategy/combine.rs:1211-1290", "src/compare.rs:246-361", "src/strategy/consume.rs:84-167"]}
{"id": "C70", "title": "The operands of an addition or multiplication may change places", "statement": "x + y and y + x, and x * y and y * x, come out the same, overflow included. Refuted on every width and build: there are fractions for which one order can be read to its end and the other overflows (on 64 bits 23355/36389 + 31091/10501 and 23194/43724 * 28009/48106). What holds: with a special operand the two calls are equal; and if both orders (of any combine, with the coefficients of x and y exchanged) return numbers that can be read to their end, they are the same number in the sense of C69 (in release builds: unless the debug build reports an overflow).", "quantifier": "all numbers and coefficients, denominator not zero, all widths, both builds", "why_tests_cant": "The unit tests try operands too small to overflow in either order.", "anchors": ["src/strategy/combine.rs:675-883", "src/strategy/combine.rs:1211-1290", "src/lib.rs:133-174"]}
{"id": "C71", "title": "A formula may be rewritten by the laws of arithmetic", "statement": "Two formulas (nested calls of ratio, homographic and combine) that are worth the same, with coefficients that fit and nothing divided by zero, come out the same, overflow included. Refuted on every width and build, with one side that can be read to its end and another that overflows: x against x + 0y; x - y against x + (-y), for x = 3/2 and y = 2^(w-2); 2x against x + x; (x + y) + z against x + (y + z), and (x * y) * z against x * (y * z), in both directions; x * (y + z) against x * y + x * z; x against (x + y) - y and against (x * y) / y; 3(3x) against 9x, in both directions. What holds, for all such formulas: if both evaluate and both results can be read to their end, the same is read of both, it is the representation of what they are worth, and the two numbers are the same in the sense of C69; with overflow checks, even if one or both overflow when read, they have the same Special or primer, and of the symbols read of the one and of the other the shorter sequence begins the longer and both begin that representation; for results that can be read to their end the same is true in a build without overflow checks, unless the build with them reports an overflow in evaluating one of the formulas or in reading one of the results.", "quantifier": "all pairs of formulas of equal worth, all widths, both builds", "why_tests_cant": "A test compares particular formulas; that all readable ways to write a value agree is about pairs of formulas of any depth, and the laws fail on operands the tests do not reach.", "anchors": ["src/lib.rs:86-174", "src/strategy/homographic.rs:840-939", "src/strategy/homographic.rs:1059-1153", "src/strategy/combine.rs:675-972", "src/strategy/combine.rs:1211-1290"]}
{"id": "C72", "title": "Some signs and reciprocals of operands may be moved into the coefficients, overflow included", "statement": "Calls come out the same (the same panic, or numbers that are the same in the sense of C69, or both run for ever) when: homographic is called with -x instead of x and the opposite nx and dx, for any number x; homographic is called with 1/x instead of x and nx and dx trading places with n and d, if x has no primer or Turn (is positive and not special), nx and dx are not both zero, and n and d are not both zero; combine is called with -x instead of x and the opposite coefficients of x, if neither operand is special and x lies between -1 and 1 (no primer, or Reflect), and likewise for y; combine is called with 1/x instead of x and the coefficients with and without x trading places, if neither operand is special and x does not have the primer Reflect (does not lie between -1 and 0), and likewise for y. Here -x and 1/x are what homographic makes of x, and coefficients that change sign are not isize::MIN (for y: none of the eight is). So x - y is x + (-y) for y between -1 and 1, and x / y is x * (1/y) for y not between -1 and 0. The first does not hold for all y: on every width and build 3/2 - y and 3/2 + (-y) differ for y = 2^(w-2).", "quantifier": "all numbers with a clog (well formed or not) as operands of combine, all numbers as operand of homographic, all coefficients as said, all widths, both builds", "why_tests_cant": "A test compares results of particular calls, mostly without overflow; this is about which intermediate integers occur, for all operands.", "anchors": ["src/strategy/homographic.rs:840-900", "src/strategy/combine.rs:675-827", "src/lib.rs:109-174"]}
{"id": "C73", "title": "A common factor of the coefficients can only make overflows more frequent", "statement": "If all the coefficients of a call of homographic or combine are multiplied by the same positive factor, then the call without the factor comes out as the one with it does (the same panic, or both run for ever, or both return), unless the call with the factor panics by an overflow; and of what is returned without the factor all the symbols can be read that can be read of the other, and the next call of egest then comes out the same way again, unless the one with the factor panics by an overflow. The same holds for whole formulas, with other factors in every call, the arguments of Number::ratio included, and for comparing the results. The call with the factor is on a build with overflow checks, the one without on any build for a machine at least as wide. The values of the formulas are equal. The converse is false: 1/3 with the coefficients of x multiplied by isize::MAX overflows when it is read, on every width and in both builds.", "quantifier": "all numbers (well formed or not) as operands, all coefficients and positive factors whose products are isize, all formulas, every symbol, all pairs of widths, both overflow-check settings of the build without the factor", "why_tests_cant": "A test can compare two calls; that no coefficients and no operands do worse in lowest terms is about all intermediate integers of both calls, where the code halves at other steps because of the factor.", "anchors": ["src/strategy/homographic.rs:840-1153", "src/strategy/combine.rs:675-1290", "src/strategy/support.rs", "src/strategy/ratio.rs:190-265", "src/lib.rs:86-174"]}
{"id": "C74", "title": "Exactly how long the symbol sequence of a rational can be", "statement": "A fraction n/d with 0 < n < d < 2^m has at most (m^2 + 3 m - 6) / 2 symbols, and 1 / (2^m - 1) has that many, for every m >= 2. With d = 2^m it is one more, and (2^m - 1) / 2^m has that many. So, on a machine of w bits: from what Number::ratio_u returns at most (w^2 + 3 w - 6) / 2 symbols can be read, and 1 / usize::MAX gives as many; from what Number::ratio returns at most (w^2 + w - 8) / 2 in builds with overflow checks, where 1 / isize::MAX gives as many, and at most (w^2 + w - 6) / 2 in builds without, where isize::MAX / isize::MIN gives as many.", "quantifier": "all m, all fractions, all arguments of ratio and ratio_u, everything that can be read off the result; all widths; both overflow-check settings", "why_tests_cant": "The longest of 2^128 fractions cannot be found by trying them all; a test sees the lengths of some.", "anchors": ["src/strategy/ratio.rs:190-265", "src/lib.rs:86-107"]}
{"id": "C75", "title": "How much n symbols tell about a number", "statement": "Two values in (0,1) whose sequences begin with the same n symbols differ by less than (3/5)^n; so do the values of two clogs off which the same n symbols have been read, after any history of calls. Exactly, they differ by less than 4/3 r^n, r being the fourth root of 5 - 2 sqrt 6, 0.56377...; and this rate cannot be lowered: values that begin with Uncover, Amplify, Amplify, Amplify, m times over, may differ by anything less than r^(4m). The other way round, no n symbols tell more than n uncovers do: the values that begin with any given n symbols lie up to 1 / (F(n) F(n+1)) apart, F being the Fibonacci numbers 1, 1, 2, 3, 5, ..., and those that begin with n uncovers lie closer than that.", "quantifier": "all real numbers in (0,1), all sequences of symbols of any length; all clogs reachable by any history of calls, on any two builds with overflow checks", "why_tests_cant": "Quantifies over pairs of reals and unbounded sequences.", "anchors": ["src/protocol.rs: Reduction documentation"]}
{"id": "C76", "title": "Comparisons along a chain", "statement": "If x and y can be compared, and y and z, and y lies between x and z (or equals one of them), then x and z can be compared. False: a positive and a negative number can each be compared with zero, which reads no symbol, and comparing them with each other may panic. It is true if x and z have the same primer or one of them is special: then comparing them returns the answer that transitivity asks for, with no more fuel.", "quantifier": "all triples of numbers, after any history; all widths; both overflow-check settings", "why_tests_cant": "Triples of unbounded trees.", "anchors": ["src/compare.rs: compare, compare_others, compare_clogs"]}
{"id": "C77", "title": "Comparing ratios with the same primer reads few symbols, and where a panic of a comparison comes from", "statement": "Comparing two numbers, neither of them special, reads each of them one symbol beyond the symbols they have in common (the end counting as a symbol) and no further; if it panics, one of these reads panics. Comparing with a special number reads nothing. Clogs whose values are at least (3/5)^n apart have fewer than n symbols in common, so that no more than n symbols of each are read. Clogs with different values a/b and c/d, after any history of calls, have fewer than (23 j + 10) / 19 symbols in common if b d <= 2^j. Different ratios with the same primer have fewer than (46 w + 10) / 19 symbols in common (with w - 1 for w if made from signed arguments), that is about 2.42 for each bit, w being the width in bits, though their sequences can be as long as half the square of w; and there are different ratios with parts up to 10^(j+1) that have 8 j symbols in common, that is about 2.4 for each bit. With different primers that is not so: 1 / isize::MAX and its negative have all their (w^2 + w - 8) / 2 symbols in common, and comparing them reads them all.", "quantifier": "all pairs of numbers, after any history; all widths; both overflow-check settings (the claim on (3/5)^n: builds with overflow checks); all n; all arguments of ratio and ratio_u", "why_tests_cant": "Pairs of unbounded trees; a test does not see how much was read.", "anchors": ["src/compare.rs: compare, compare_others, compare_clogs"]}
{"id": "C78", "title": "Numbers are continued logarithms, and the first run of amplifications tells the size", "statement": "Every rational above one is 2^a + 2^a / (2^b + 2^b / (... / 2^(z+1))) for exactly one non-empty list of exponents a, b, ..., z. What is read off a number after any history is this continued logarithm of q, 1/q, -q or -1/q according to the primer: as many amplifications as the first exponent says, then an uncover, then as many amplifications as the second says, and so on, the end taking the place of the last uncover; unless reading panics on overflow (in a build without overflow checks: unless reading overflows). For Number::ratio and Number::ratio_u it is so in all builds, without overflow. So if n amplifications have been read and the next symbol is no amplification, 2^n is the greatest power of two below |q| (below 1/|q| if |q| < 1), and the next power of two is reached just when the next symbol is the end. Continued logarithms are ordered by the first exponents that differ, the greater exponent making the number greater in the first, third, ... place and less in the others; one that ends where another goes on counts as the greater exponent would. For two numbers with the same primer the comparison answers this order of their exponents if the primer is Turn or Reflect and its reverse otherwise: for ratios in all builds, after other histories unless it panics on overflow.", "quantifier": "all rationals, all lists of exponents of any length; all numbers reachable by any history of calls in builds with overflow checks, read in either build; all arguments of ratio and ratio_u in all builds", "why_tests_cant": "Quantifies over all rationals and unbounded sequences.", "anchors": ["src/protocol.rs: Reduction documentation", "src/lib.rs:21-30"]}
{"id": "C79", "title": "Every short symbol sequence is that of a ratio", "statement": "For each primer (or none) and each sequence of at most w - 2 symbols there are arguments of Number::ratio_u from which a number with exactly that primer and those symbols is made, w being the width in bits, in all builds; for Number::ratio so it is for at most w - 3 symbols. One more is too many: no arguments of ratio_u give w - 1 amplifications, and none of ratio give w - 2 in a build with overflow checks.", "quantifier": "all primers, all sequences up to the given length, all arguments of ratio and ratio_u; all widths; both overflow-check settings (the last claim: with overflow checks)", "why_tests_cant": "There are 2^62 sequences, and 2^128 arguments to rule out.", "anchors": ["src/strategy/ratio.rs:190-265", "src/lib.rs:86-107"]}

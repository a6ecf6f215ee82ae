# Design: a Rocq model of clarith and what is proved about it

Target: `/repo` (crate `clarith`, exact rational arithmetic on continued
logarithms). Everything below is Coq 8.16.1, standard library only.

## The model (rocq/theories, files `Machine` … `Lib`, `Output`, `Unwind`, `Nesting`, `Main`, `Heap`, `HeapUnwind`, `TestSuite`)

The model is an executable transcription of the Rust source. One Coq
definition per Rust function; the comment above each gives file and lines.

| file | Rust source |
|---|---|
| `Machine.v` | `isize`/`usize` arithmetic: checked_*, built-in operators, casts, `/ 2`, `% 2` |
| `Protocol.v` | `src/protocol.rs` |
| `Support.v` | `src/strategy/support.rs` |
| `Types.v` | the data types of `lib.rs` and `strategy.rs` |
| `Ratio.v` | `src/strategy/ratio.rs` |
| `Homographic.v` | `src/strategy/homographic.rs` |
| `Combine.v` | `src/strategy/combine.rs` |
| `Lib.v` | `src/lib.rs`, `src/compare.rs`, `src/strategy/consume.rs` |
| `Output.v` | the calls again, with the text that the debugging `println!`s of homographic.rs write |
| `Unwind.v` | `Clog::egest` again, keeping the clog that a panic leaves behind |
| `Nesting.v` | the calls again, with how many activations of the recursive functions are open, and how many there are in all |
| `Main.v` | `src/main.rs`; `print!` becomes the printed text, the library's own output included |
| `Heap.v` | the calls again, with the reference counts of `Combine`'s `Rc<Clog>` handles on a heap, and drops |
| `HeapUnwind.v` | the same, with what a panic drops and what it leaves, and a client that catches panics |
| `TestSuite.v` | `tests/compare.rs`: the three integration tests with their reference arithmetic; the limits of the loops are parameters |

Modelling decisions:

* Machine integers are `Z` with an explicit configuration `cfg`: pointer width
  16/32/64 and whether built-in overflow is checked (`ovf = true`: debug build,
  panics) or wraps (`ovf = false`: release build). Theorems quantify over `cfg`
  unless they say otherwise.
* A call yields `res A = Ok a | Panic p | NoFuel`. Panics are classified:
  `PDivZero` ("division by zero"), `PLogic` ("logic error"), `PNotSpecial`,
  `PNotOther` (the unwrap_* panics), `PUnwrapNone` (unwrap of a missing
  strategy), `PChecked` (unwrap of a failed checked operation), `PArith`
  (built-in overflow in a debug build).
* Rust's recursion is modelled with fuel. `NoFuel` never stands for an answer:
  every theorem about a call says that there is an amount of fuel from which
  on the call has the given outcome (so termination is part of the claim), or
  quantifies over all fuels and speaks about non-`NoFuel` outcomes.
* `&mut` state becomes a returned state. `Combine`'s `Rc<Clog>` handles are
  modelled as owned clogs; that they always have a unique owner is C60 and C61,
  about `Heap.v` and `HeapUnwind.v`, which keep the counts.
  A Rust `Clog` is moved into its consumers, so there is no aliasing to model.
  What a panic leaves behind the reference that `egest` takes is the subject of
  `Unwind.v`; every other function takes its arguments by value.

Not modelled: the sizes of stack frames and heap exhaustion (C45 bounds the depth of
the recursion, but a deep one can still overflow the Rust stack), `Debug` formatting, errors of the
output stream, running time (C48 counts activations), the `Strategy` impl of `Consume` that nothing calls, the Docker
and Cargo packaging.

## The specification (`Spec.v`, `SpecEnd.v`, `SpecReal.v`, `SpecMain.v`, `SpecHist.v`, `SpecUnwind.v`, `SpecNest.v`, `SpecLong.v`, `SpecSize.v`, `SpecWork.v`, `SpecLazy.v`, `SpecSmall.v`, `SpecTell.v`, `SpecAlike.v`, `SpecWidth.v`, `SpecPrecise.v`, `SpecApart.v`, `SpecFormula.v`, `SpecHeap.v`, `SpecHeapUnwind.v`, `SpecEffort.v`, `SpecRelease.v`, `SpecLowest.v`, `SpecScale.v`)

Over `Q` (and `R`), independent of the model's functions and of the proofs:

* `clog_seq v l`: the documentation of `Reduction`. One half has the empty
  sequence; below one half emit `Amplify` and continue with 2v; above emit
  `Uncover` and continue with 1/v − 1. `spec_symbol`, `spec_rest` are one step
  of it. `SpecReal.v` has the same rule over the reals (`emits`, `starts`).
* `special_val`, `primed`, `represents q r`: the documented meaning of Special
  and Primer.
* `hom`, `comb`: the two fractions of the documentation of
  `Number::homographic` and `Number::combine`; `hom_num`, `comb_num` their
  denominators.
* `settles f r`: from some fuel on, the call has the outcome `r`. `returns`,
  `overflows`, `yields f P` (returns something satisfying `P`, or overflows)
  are built on it. Termination is part of each.
* `drain` calls `egest` until `None`; `read k n r` is what a client reads off
  a number with it; `shows` the same up to overflow.
* `clog_has k c v`, `num_has k n q`: the clog or number can be obtained by
  calling the public API, and arithmetic on rationals gives it the value `v`
  (`q`). One rule per public operation, including `egest` (a clog changes its
  value when a symbol is taken off), re-wrapping a clog under any primer, and
  the leftover of `consume`. The rules mention calls that returned and never
  the proofs' invariants.
* `SpecEnd.v`: `terminates` (returns or panics), `readable` (reading the number
  comes to an end), `steady` (each `egest` ends), `moderate` (not extremely large
  or small), `read_overflows`.
* `SpecMain.v`: the text of a representation, debugging lines, and the lines the
  demonstration program should print. `SpecHist.v`: an abstract machine over `Q` whose cells
  hold rationals; what a client performing a list of operations should see.
* `SpecUnwind.v`: `caught` (what a panic of `egest` leaves), `held` (what a client
  that catches panics can get hold of), `fields`, `kept_promise`. `SpecNest.v`: `gives`
  (how many symbols), `nests` (how deep), `layered` (levels of operations).
  `SpecSize.v`: `boxes`, `clog_from`/`num_from`.  `SpecWork.v`: `work`, `spends`, `costs`, `spent`.
  `SpecLazy.v`: `begins`, `opens`, `undecided`, `undecided_rest`, `unopened`.
  `SpecSmall.v`: `amps`, `amplifications`.  `SpecTell.v`: `followed`, `opening_line`, `reading_line`, `tells`.  `SpecAlike.v`: `goes_on`, `gives_then`.  `SpecWidth.v`: `fits_in`, `overflows`.  `SpecPrecise.v`: `pinned`. `SpecApart.v`: `magnitude`. `SpecFormula.v`: `formula`, `worth`, `evaluate`, `parts`, `modest`. `SpecHeap.v`: `owns`, `tidy`, `same_end`. `SpecHeapUnwind.v`: `action_ok`, `held_item`. `SpecEffort.v`: `calls`, `effort`, `contained`. `SpecRelease.v`: `shows_release`.
  `SpecLong.v`: `reads_as`, `few_symbols`, `not_proportional`, `still_depends`.

## Proofs

| file | content |
|---|---|
| `Upto.v` | more fuel never changes an answer; debug and release agree up to `PArith` |
| `SeqProofs.v` | facts about `clog_seq`: existence, uniqueness, order |
| `Good.v` | the invariant `good k E c l`: the clog `c` gives the symbols `l`, or stops with a panic in `E` |
| `RatioProofs.v`, `SupportProofs.v` | ratios; the comparisons and ranges of support.rs |
| `HomProofs.v`, `HomValue.v`, `HomGood.v` | homographic: one step, its effect on the value, the loops |
| `CombProofs.v`, `CombValue.v`, `CombGood.v` | the same for combine |
| `LibProofs.v` | compare and consume |
| `ApiProofs.v`, `ArithProofs.v` | theorems about API calls, from the invariant |
| `BuildProofs.v`, `RecipProofs.v` | debug against release; calls that never overflow; small coefficients; the reciprocal |
| `LengthProofs.v` | the longest sequence of a machine fraction |
| `RealProofs.v` | sequences of real numbers |
| `DivProofs.v` | denominators that vanish |
| `OutputProofs.v` | `Output.v` gives the outcomes of the other model, and writes only debugging lines |
| `MainProofs.v`, `HistProofs.v`, `FinalProofs.v` | the demonstration program, histories, corollaries |
| `ReleaseProofs.v` | values and panics without overflow checks; the wrap-around witnesses |
| `EndProofs.v` | every call ends on operands that can be read to an end; how much consume reads |
| `FeedProofs.v` | leftovers of consume given to homographic |
| `LongProofs.v` | how many symbols a homographic state gives; reading its results ends |
| `LongCombine.v` | the same for combine states and the four operations |
| `UnwindProofs.v` | `Unwind.v` agrees with `Lib.v`; what every clog keeps to after caught panics |
| `NestProofs.v` | `Nesting.v` has the outcomes of `Lib.v`; how deep calls nest |
| `SizeProofs.v` | strategies in a clog, before and after |
| `WorkProofs.v` | the activations within a budget, and what is left of it |
| `LazyProofs.v` | what is read of the operands, and what it is enough for |
| `EnoughProofs.v` | the same for proportional coefficients, and for combine after one of its operands has ended |
| `SmallProofs.v` | the coefficients weighed with the operand's parts; how often a fraction amplifies |
| `TellProofs.v` | the debugging lines of homographic |
| `AlikeProofs.v` | compare and consume on numbers that begin alike |
| `SoonProofs.v` | how much a homographic reads for its next symbol |
| `WidthProofs.v` (spec in `SpecWidth.v`) | narrow and wide machines: the chain of `Upto.v` between two widths |
| `PreciseProofs.v` (spec in `SpecPrecise.v`) | how close the fractions of consume are to the number |
| `ExactProofs.v` | small fractions are consumed to the end |
| `SoonCombine.v` | how many symbols a combine reads for the next one |
| `ApartProofs.v` | how many symbols a comparison reads |
| `FormulaProofs.v` | formulas with small fractions |
| `HeapProofs.v` | a small separation logic; `Heap.v` in lockstep with the other model |
| `HeapUnwindProofs.v` | the same logic with a second postcondition, for panics; `HeapUnwind.v` in lockstep with `Unwind.v` |
| `TestProofs.v` | the integration tests: their reference arithmetic, the numbers under test, the loops |
| `EffortProofs.v` | the work of formulas, and of single operations on machine fractions, by the sizes of the values |
| `LowestProofs.v` | the common factors of what consume returns |
| `ScaleProofs.v` | powers of two, and adding one, where the state is a shift of the symbols |
| `UnitTables.v`, `UnitTests.v`, `UnitProofs.v` | the unit tests in the sources as programs; more fuel does not change their outcome |
| `NeutralProofs.v` | combine with a special operand; division by minus one, and of one and minus one |
| `SpecSame.v`, `SameProofs.v` | when numbers are the same to a reader; that nothing else matters to any call |
| `SpecLaws.v`, `LawsProofs.v` | formulas that divide by nothing that is zero; the value of whatever they evaluate to |
| `MoveProofs.v` | what absorbing primers does to coefficients whose signs or places were changed |
| `SpecFactor.v`, `FactorProofs.v` | two runs in step, on coefficients of which the first are multiples of the second |
| `LongestProofs.v` | the longest symbol sequences, and fractions that have them |
| `SpecWorth.v`, `WorthProofs.v` | the width of the interval of the values that begin with given symbols |
| `SpecRate.v`, `RateProofs.v` | the exact rate at which symbols pin a value down |
| `MirrorProofs.v` | which comparisons return and which panic: swapped operands, chains of three, and how far the operands are read |
| `ReachProofs.v` | how many symbols two ratios have in common |
| `FewProofs.v` | how many symbols consume reads at most |
| `SpecLog.v`, `LogProofs.v` | continued logarithms as lists of exponents |
| `ExampleTools.v` | tools for the Examples |
| `Prop*.v` | the property theorems `cNN_…`: statement, `exact lemma`, `Print Assumptions`, Examples |

| id | what is modelled / how it is proved |
|---|---|
| C01, C02 | `number_ratio(_u)` and `drain`; induction on a measure of the fraction gives termination, each step of `ratio_egest` is the step of the specification on num/den. |
| C03 | the same run; the potential of `LengthProofs` bounds its length by (w² + 3w)/2 − 2; `2*num` is only formed when `num <= den/2`. |
| C04 | C01 and the injectivity of `clog_seq`. |
| C05 | structural induction on the list decodes it; C01 encodes it. |
| C06, C07, C35 | over `R`: descent for rationals, contraction of the intervals for uniqueness and precision. |
| C08–C10 | `number_compare`; induction on the symbol sequences, whose order is the order of the values. C10 needs no hypothesis at all, save `c10_mirror_panics`, which needs operands that do not get stuck. |
| C11, C12 | loop invariant: the state applied to what remains of the operands is the wanted value, and lies between the image extremes; termination by the finite sequences of the operands and of the result. |
| C13 | instances of C12 and C09; the laws without overflow checks (`c13_*_release`) from the build with checks by `ReleaseProofs.v`, as for C11 and C12. |
| C14–C17 | the invariant holds of every reachable clog, by induction on `clog_has`/`num_has`. |
| C18, C19 | false as stated: `…_refuted` with a witness. What does happen is proved as `…_partial`: a DivZero panic, an overflow, or (only if the denominator vanishes identically in one operand) a number that gives `Amplify` forever. |
| C20–C23 | `number_consume`: loop invariant with the bound on the coefficients. |
| C24 | the state stays the identity, whatever the operand gives. |
| C25 | a simulation over every function of the model between `ovf = true` and `ovf = false`. |
| C26 | false: `…_refuted` with coefficient `isize::MIN`, and two witnesses without it. `…_partial`: right wherever the debug build does not panic in a built-in operator. |
| C27 | the invariant with a bound: each symbol at most doubles the largest coefficient. |
| C28 | forward simulation of the abstract machine, by induction on the history. |
| C29, C31, C33 | corollaries of the value theorems. |
| C30 | false: `…_refuted`, the debugging lines show how a number was built. `…_partial`: the letters are those of the representation, and the text of a representation is injective. |
| C36 | `Main.v`; the loop of `main` line by line; ratios write nothing else. |
| C32 | false: `…_refuted`; `Ordering::then` gets its argument evaluated, so the clogs are compared whatever the primers. `…_partial`: the answer is right and depends on the primers only; a panic is one of reading the two, after symbols they share. |
| C34 | false for operands between −2^−(w−2) and 0: `…_refuted`; the `…_partial` theorems settle every operand. |
| C37 | false: `…_refuted`, wrap-around leads to "logic error". `…_partial`: C17 carried over by the simulation of C25. |
| C38 | false: `…_refuted`, (1/3)/0 is a number and some calls on it never end. `…_partial`: induction on the operands' symbols and, for the loops, on the reductions left, with no hypothesis on the coefficients. |
| C39 | four symbols shrink the interval of the values still possible at least eightfold, and the coefficients that describe it grow accordingly; with the exact rate of C75 the bound is within one of what is reached. At least: one symbol at most doubles the greatest coefficient. |
| C40 | false: `…_refuted`. `…_partial`: one induction over all functions of `Output.v` relates it to the other model. |
| C41 | false: `…_refuted`; the rows of the coefficients that consume leaves are ordered, so one of the first two products of `homographic` is at least 5·(isize::MAX/4). `…_partial`: C20 and C11. |
| C42 | false: `…_refuted`, a wrapped coefficient gives a zero numerator. `…_partial`: C14 carried over by C25; C43; C46. |
| C43 | emitting symbols multiplies the coefficients by the inverse of a matrix whose entries grow with every four symbols, while the determinant stays away from zero; so only boundedly many come out between two ingestions. |
| C44 | false: `…_refuted`, for every width. `…_partial`: a structural invariant (fields in range, ratios in (0,1)) that every statement keeps, panics included; `Unwind.v` agrees with `Lib.v` when the receiver of a panic is forgotten. |
| C45 | `Nesting.v` counts open activations of the recursive functions; induction along the symbols that the operands have left. |
| C46 | as C43, on two columns with a non-zero minor; the determinant that is left when an operand ends is followed through the symbols of the operand. |
| C47 | by induction on fuel, for the model that keeps the receiver of a panic as well. |
| C48 | an amortised count: symbols left plus work left of the operands pays for the loop. |
| C49 | partial: a homographic state that neither emits has an image across 1/2, and both sides have a rational operand that begins the same way; when an operand of `combine` ends, its state becomes a homographic of the other with the ended operand's value put in, so the same holds from there; for the opening across -1, 0 or 1 likewise.  Refuted: `1/(-x)` (a pole at the end of the range counts as +infinity), and `x` through `combine` (strict comparisons). |
| C50 | partial: with the operand a/b, the value's denominator dx*a + d*b bounds all coefficients once the primer is out; Amplify doubles it, Uncover and every output leave it or shrink it.  For combine the same with four corners; at the end of an operand the weight is divided by a.  Refuted without the count of amplifications: 3*(1/1023) on 64 bits. |
| C51 | the invariants of C49 hold of the coefficients at every `println!`; `tells` follows the text line by line. |
| C52 | induction on the fuel of the two loops, for any clogs; the answer is compared with every value that begins with the symbols read. |
| C53 | C49 says that reading on means that the next symbol is open; two symbols halve the distance of operands (C35, over Q), and the determinant bounds how far results spread. |
| C54 | Two builds of different width are run side by side; every number that fits the narrow one fits the wide one, and only `consume` looks at the width. |
| C55 | An invariant of the loop: d is the largest coefficient and bounds the determinant, so the two ends are at most 1/(d+dx) apart. |
| C56 | With a/b what is still to be read, dx\*a + d\*b never grows except twofold at an Amplify, and it is at least 2d, the largest coefficient. |
| C57 | No symbol is given only if 1/2 is between the values at the corners of what the operands can still be; two symbols halve the sides, and the quotient changes by at most (H/L)^2 times as much. |
| C58 | Numbers that share 2j symbols have magnitudes less than 2^-j apart; for the rest, induction over the shared symbols. |
| C59 | Induction over the formula with the bounds of C50 at every node. |
| C60 | A triple for every function of `Heap.v`: started on a heap that the arguments own, it does what the function of the other model does and leaves a heap that the result owns, the rest of the heap untouched. |
| C61 | As C60, for `HeapUnwind.v`: a triple has a second postcondition for a panic, which says what is left to the caller; unwinding establishes that it is nothing, or the receiver as `Unwind.v` has it. |
| C62 | The reference arithmetic of the tests keeps to bounds on numerator and denominator and has the right value; C50's room for small fractions gives the numbers under test without overflow, and C09's comparison decides. The loops are taken apart for the converse. |
| C63 | C45: the symbols a number gives are those of its value; C38's bound on the length of the representation, for both parts of the fraction; C48's bounds for the single calls, by induction on the formula. Panicking calls are bounded like the others. |
| C64 | the determinant of consume's coefficients stays a divisor of a power of two (it is doubled, halved or negated), and every common factor divides it; with C55's invariant the denominator is positive; with C56 and C59 the whole way from a formula to its value in lowest terms. |
| C65 | on these ranges the state only drops or adds leading symbols and then is the identity: the states with a power of two are checked by computation for every exponent, the rest is induction on the exponent; the refutations are computed on every width and build. |
| C66 | the tests are run by computation on each of the six builds (all of them: there are no other widths); more fuel changes nothing (`UnitProofs.v`); the tables are compared with the rationals. |
| C67 | combine with a special operand is unfolded to homographic; the identity and the negation are those of `BuildProofs.v`. |
| C68 | the state doubles one coefficient per leading `Amplify` and is then the identity: checked by computation for every exponent, the rest is induction; one exponent further the overflow is computed too; the refutations are computed on every width and build. |
| C69 | a simulation: whatever the one side does with some fuel, the other does with enough fuel (`follow`), for clogs built alike around operands that simulate one another; by induction on the fuel. |
| C70 | the refutations are computed on every width and build; the rest follows from the values and C69. |
| C71 | the refutations are computed on each width and build; the rest by induction on the formula (`evaluate_has`), and because a value has one representation. |
| C72 | the coefficients after the primers are absorbed are equal, so the calls are equal on numbers that differ in the primer only; with C69 for -x and 1/x as `homographic` makes them. |
| C73 | two runs in step: every integer of the run with the factor is the factor times that of the run without, where the factor gets smaller when the first run halves and the second doubles; the forms of zero and of the infinities in `updated_range` have no factor. Function by function, then by induction on the fuel; what fits with a factor fits without. |
| C74 | as the bound of C03, but following how often the denominator can come down to exactly a power of two: for (2^m + n) / (2^m + n + 1) only, and then n / 2^m is short unless n = 2^m - 1, which the bound excludes. Reached: the sequence of 1 / (2^m - 1) is m - 1 amplifications, two uncovers and the sequence of 1 / (2^(m-1) - 1). |
| C75 | the values that begin with given symbols are the image of (0, 1) under a map (a t + b) / (c t + d). With r = c / d in [0, 1] one more amplification turns r into r/2 and multiplies the width by (1 + r)/(2 + r), one more uncover turns it into 1/(1 + r) and multiplies by 1/(2 + r). The rate 3/5: width times 1 + r^2/5 loses 3/5 each time. The exact rate: an amplification turns (c, d) into (c, 2d), an uncover into (d, c + d), and the smallest of four linear forms in c and d — the eigenform of Uncover Amplify Amplify Amplify and its images — grows by the wanted factor each time. The narrowest: induction with the closed form for uncovers. |
| C76 | `number_compare` of three numbers on the same fuel: the clogs of x and z are read no further than those of x and y or those of y and z were. The counterexample is that of C32, with zero between. |
| C77 | sharper than C58, and without hypotheses on the numbers: induction on the fuel of `compare_clogs`; the bound on the symbols in common is C75. Different fractions with denominators up to 2^m are 2^(-2m) apart, and 23 symbols are worth 19 bits. The ratios with many symbols in common are those that t -> (8 + t) / (9 + t) makes of 1/2 and 1/3: it puts eight symbols in front and multiplies the denominator by less than ten. |
| C78 | induction on the list of exponents: one more amplification doubles the continued logarithm, and an uncover puts 1 + 1/… in front; the rest is C05 and C14. The order is decided by the sizes 2^a < … ≤ 2^(a+1), with C08 and C09 for the comparison. |
| C79 | each symbol at most doubles the denominator of the fraction that a sequence stands for; n amplifications are 1 / 2^(n+1). |

None of the properties is inexpressible in the model.

## Wrong programs

`seeded/LOG.jsonl` has one line per edit of the model that was tried in a scratch
copy. `claims_broken` are the properties that an executable check saw fail on sampled
inputs (a check is only used when it passes on the model as it is; a claim that is false
on no sampled input is not listed). `proofs_that_fail` are the lemmas whose proofs broke
when each file was compiled with the failing lemmas taken for granted.
`theorems_failed` are the property theorems that rest on such a lemma, following the
references that Coq resolved. A broken claim none of whose theorems is in that list
would mean a theorem that is too weak. The converse is not shown: that a theorem rests on
a proof that broke does not mean that it is false of the edited program. A proof that ran
out of time (`proofs_out_of_time`) counts as no evidence, since the machine was busy; for
the one edit where there was nothing else (`a03`) the statement was proved false of the
edited program. Of the edits planned in the later rounds only
those in the log were tried, for want of time. The rounds whose ids begin with a digit, `A-`,
`B-` or `C-` were tried against the newer properties only: `4-…` against C64 to C68, `5-…` against C69
and C70, `6-…` against C71 and C72, `7-…` against C73, `8-…` against C74, `9-…` against the
mirrored panics of C10, the reads of C39, and C76, `A-…` against C77, `B-…` against the bounds
of C39, C75 and C77 that use the exact rate, `C-…` against C78.

One theorem was found too weak (`tests-r19`: the lists of inputs of the integration test were
read from the model in the statements of `c62_combines_seen` and `c62_expected_combine`,
which now list them); no other is known. Four results of checks were set aside by hand,
because the samples fall outside the claim in the edited program: C39 under `f01`
and `f11` (the endless operand never answers), C48 under `f09` (no ratio ends), C73 under `7-q13`
(it differs only if the call with the factor is on a build without overflow checks). A first
version of `v04` was replaced, as the driver could not get past a file with it.
The edits `heap-…` and `unwind-…` are those of the heap with reference counts (C60, C61),
`tests-…` those of the integration tests (C62).

## Trusted base

* Coq's kernel (and `coqchk`), the VM used by `vm_compute` in Examples.
* The reading of the Rust source recorded in the comments of the model files.
  Nothing ties the model to the compiled code; the repository's own tests
  have the outcome on the model that they are reported to have (C62, C66).
* Rust semantics assumed: two's complement, built-in overflow panics iff
  overflow checks are on, `/` and `%` truncate, `checked_*` never wrap,
  `Ordering::then` evaluates its argument.
* Assumptions, as `Print Assumptions` lists them (output in the build log):
  every theorem `cNN_…` is "Closed under the global context", except those over
  the reals — `c06_finite_iff_rational`, `c06_rule`, `c07_sequence_determines`,
  `c35_precision`, `c39_reads_rate`, those of C75, `c77_apart`, `c77_values`, `c77_ratio` and `c77_ratio_u` — which use
  `ClassicalDedekindReals.sig_forall_dec`, `FunctionalExtensionality.functional_extensionality_dep`
  and, where square roots occur, `ClassicalDedekindReals.sig_not_dec`, the axioms under
  Coq's own real numbers.

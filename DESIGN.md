# Formal model of rust_dct: design

`/repo` is the rustdct crate. This directory holds a Rocq (Coq 8.16.1) model of its code and proofs of the
properties listed in `properties.jsonl`. This file was written before the proofs and is kept current.

## 1. What is modelled

Every function of `src/` outside `#[cfg(test)]` that takes part in a transform, in a planner call or in a window:

| source | model file |
| --- | --- |
| `lib.rs` trait default methods, `Length`, `RequiredScratch` | `Model_Common.v`, `Model_Api.v` |
| `common.rs` | `Model_Common.v` |
| `array_utils.rs` | `Model_Common.v` |
| `twiddles.rs` | `Model_Common.v` |
| `algorithm/type*_naive.rs` | `Model_Naive.v` |
| `algorithm/type*_convert_to_fft.rs` | `Model_Fft.v` |
| `algorithm/type2and3_butterflies.rs` | `Model_Butterflies.v` |
| `algorithm/type2and3_splitradix.rs` | `Model_SplitRadix.v` |
| `algorithm/type4_convert_to_type3.rs` | `Model_SplitRadix.v` |
| `mdct/*.rs` | `Model_Mdct.v` |
| `plan.rs` | `Model_Plan.v` |

Each definition carries a comment with the file and lines it transliterates.

### Shape of the model

* **Programs.** `prog T A` is a free monad over single-cell memory accesses:
  `Ret | Rd address k | Wr address value k | Panic e | UB`. `run` executes a program on a memory (a function from
  addresses to `T`). A panic keeps the memory reached so far, so "a rejected call modifies nothing" is expressible.
* **Slices** are `{base; slen}`. Indexing is bounds-checked (panic), `get_unchecked` outside the slice is `UB`,
  `usize` subtraction is checked, slice splitting and reslicing are checked.
  Complex slices produced by `into_complex_mut` are pairs of adjacent cells.
* **Numbers.** The code is generic in `T: DctNum`; so is the model. A record of operations (`Num`) supplies `f64`
  (used to build twiddles) and `T`. Structural theorems (panics, memory safety, scratch, planner, determinism,
  concurrency) are proved for *every* such record, with no algebraic law, so they cover `f32`/`f64` with rounding
  and NaN. Numerical theorems are proved for the real-number instance ("in exact arithmetic").
* **FFT.** rustfft is outside `/repo`. An FFT instance is a record (length, direction, required scratch, function on
  the buffer and scratch contents). Hypotheses about it (`length preserving`, `result independent of scratch`,
  `computes the forward DFT`) are explicit in the theorems; a naive DFT instance witnesses that they are satisfiable.
* **Trait objects** (`Arc<dyn TransformType2And3<T>>`, ...) are records of functions, so user-defined compositions are
  covered by quantifying over the record together with the specification it has to meet.
* **Planner** is a state machine: caches (association lists), a counter that gives each `Arc` its identity, and the
  FFT planner as a function from length to FFT instance. Its recursion on the length is fuelled, and the fuel is proved
  sufficient.

### Not modelled, or simplified

* In the model of the table above, `usize` addition and multiplication do not overflow (sizes are unbounded naturals)
  and subtraction panics below zero, as in a debug build. `Model_Checked*.v` is a second transliteration in which every
  `usize` addition, multiplication and subtraction of the code is bounded by a greatest word `MAX` and panics (debug
  build) or wraps around (release build); C51 and C52 relate the two. It covers every function of the table except the
  butterflies, whose index arithmetic is on constants, and the argument checks in `common.rs`, which only compare.
  Shifts, divisions, remainders, comparisons and the arithmetic hidden in iterators and slice methods cannot overflow
  and are the same in both.
* `T::from_f64(..).unwrap()` is total (it is for every float type).
* rustfft itself (oracle record as above); an FFT call is a block of reads followed by a block of writes.
* Allocation never fails; `Vec`/`Box` of twiddles are lists; dropping and reference counts are not modelled.
* Panic messages are error constructors, not strings.
* The length and scratch length that an inner transform or FFT reports are constants. The crate's own types store them;
  a foreign implementation (C62) could return something else each time, which only `MdctViaDct4::len` would notice.
* `array_utils::into_complex` (the immutable version) is never called and left out.
* Floating-point rounding: the theorems that say a result *equals* a transform are about exact arithmetic. C48 to
  C50, C55 and C61 are about rounded arithmetic, in the standard model (`rounding u v N` in `Spec_Round.v`): every operation has a bounded relative
  error, cosine and sine a bounded absolute error, and nothing overflows or underflows. Binary arithmetic with rounding
  to nearest and unbounded exponents is proved to be an instance, exact arithmetic another. In C49 and C50 the accuracy of the
  FFTs is an assumption on the oracle (`fft_error phi` in `Spec_Entry.v`): each component of each entry of the result is
  within `phi` times the sum of the magnitudes of the input of that of the DFT. C56 and C57 hold for arithmetics of any
  kind that respect relations between their values. C59 adds overflow to the standard model, C60 overflow and gradual
  underflow (`rounding_under` in `Spec_Float.v`, with the formats of IEEE 754 as instances), both for the power-of-two
  transforms that use no FFT. `Spec_Binary.v` (C65) is IEEE 754 itself as `SpecFloat` of the standard library defines it, with infinities
  and NaN, and `cos` and `sin` as parameters; C66 proves that its operations round correctly and bounds the error of these transforms in it. Elsewhere the `f64` values the tables are computed from never overflow or underflow.
* `#[cfg(test)]` code, benches, examples, doc-tests.

## 2. Proof structure

1. **Imperative to functional.** For every algorithm, `computes p n sl F`: for every memory and every pair of disjoint
   slices of length `n` and at least `sl`, the call returns, the buffer holds `F (old buffer)`, and nothing outside the
   buffer and the first `sl` scratch cells changes. `F` is generic in `T`. Scratch independence, determinism, absence of
   panics and of UB follow for all `T`. Where the code reads stale scratch, `F` takes the old scratch as an argument.
2. **Functional to definition.** At `T = R`, `F` equals the textbook sum in `Spec.v`.
3. **Planner.** An invariant on caches (every cached instance meets its specification for its key), preserved by
   every plan call, lifts both to all histories.
4. **Composition.** `Spec_Build.v` describes every instance that can be composed from the public constructors, over
   any inner instances (`built_*`); `Build_*.v` prove by induction on that description that each confines its accesses,
   rejects wrong lengths, works and is exact, as far as each is true.
5. **Cost.** `costs p c`: at most `c` accesses whatever the reads return; added up along the recursion of the planner.
6. **Rounding.** `near2 n r h x` and the like bound the weighted distance of `h` to the exact transform by `r - 1` times
   the weighted norm, the weights being those for which the transform is orthogonal. One split step multiplies `r` by
   `level u v` (`Round_Stage*.v` at the level of vectors, `Round_Sem.v` for the code of step 1, `Round_Butterflies*.v`
   for the hand-written sizes); `Round_Plan.v` is the induction over the planner's recursion. All other
   transforms are analysed entry by entry: `nr g S a' a` says that `a'` is within `(g - 1) S` of `a`, which is at most
   `S`, and each operation multiplies `g` by `1 + u` (`Round_Entry.v`); `Round_Naive.v`, `Round_Fft.v`, `Round_Type4.v`
   for the algorithms, `Round_Entry_Plan.v` for what the planner builds, `Round_Mdct.v` for the MDCT.
7. **Confinement.** Every program only touches its own slices (proved for all lengths, legal or not); any interleaving
   of programs with disjoint footprints is equivalent to running them one after the other.

8. **Word size.** The checked programs are related to the others operation by operation (`Checked_*.v`): under the size
   bound of the theorem each checked operation returns the same natural, so runs coincide.
9. **Traces.** `osim R p q` (`Oblivious.v`): two runs make the same accesses and end alike whatever each of them reads;
   proved for every method against itself with one generic tactic. The interface `Num` has no test on samples, because
   the code calls none (it never uses `is_zero`, `abs`, comparisons and the like, which `T: DctNum` would offer); what is
   left to prove is that indices, loop bounds and ends of calls do not come from samples.

`Spec.v` contains the definitions the claims are stated with (textbook sums, windows, Princen-Bradley condition,
overlap-add) and does not depend on the model.

## 3. Properties

| id | modelled and proved how |
| --- | --- |
| C01-C16 | planner invariant + step 1 + step 2 for each algorithm the planner can choose; FFT hypothesis: exact forward DFT |
| C17, C18 | same, for `MdctViaDct4` (and `MdctNaive`) |
| C19, C21 | DCT4 involution + Princen-Bradley at reference level, lifted to a loop of model calls over segments |
| C20 | trigonometry over R on the model's window functions |
| C22 | orthogonality of the 16 bases by Dirichlet-kernel sums, composed with C01-C16 |
| C23 | corollary of per-algorithm exactness theorems, quantified over inner instances |
| C24 | follows from `computes`; refuted (witness) for DST1/DST6/DST7 through the FFT; positive for the rest |
| C25, C27, C28 | from `computes` and a rejection lemma per algorithm |
| C26 | rejection lemma per algorithm; refuted (witness) for split radix DST2/DST3, which edit the buffer first |
| C29 | refuted with a concrete split radix over an FFT conversion with in-place FFT scratch; positive characterisation under a side condition |
| C30, C37, C38 | confinement + absence of UB for every slice length |
| C31-C33, C35, C36 | planner invariant over arbitrary histories |
| C34 | refuted with a witness history; positive: holds when the length was not planned before |
| C39 | case analysis of the constructors |
| C40 | corollary of C01-C16 |
| C41 | corollary of `computes` for every `Num` |
| C42 | direct execution of the model at length zero |
| C43 | rejection lemma for the MDCT |
| C44 | `computes` + step 2 for the naive structs |
| C45 | corollary of C02, C03, C10, C11 |
| C46 | a cost predicate on programs and induction on the exponent; stack arrays inside the butterflies are not counted |
| C47 | C17 for the layout of two overlapping shared borrows |
| C48 | weighted-norm error analysis of every split step and butterfly, induction on the exponent |
| C49 | entrywise error analysis of the naive loops, the conversions to an FFT, the size 3 butterfly and type 4 via type 3 |
| C50 | folding and unfolding around the DCT4 bounds of C48 and C49; the naive loops directly |
| C51 | `follows B q p` (the checked program `q` runs as `p` does) for every algorithm, and a simulation of planner states |
| C52 | the loop of `MdctNaive` with an arbitrary first table index; cosine periods decide when wrapping is harmless |
| C53 | step 9 for every method, lifted to all instances; the FFT counts as one block read and one block write |
| C54 | the number of missing sizes 8..2^k plus the number of instances is invariant under `plan_dct2`; every instance is in a cache slot |
| C55 | norms of the errors of MDCT and IMDCT (the inner DCT4 error is a norm bound already), each window function against its exact values, then the exact identity of C19 for the stored window and its distance to Princen-Bradley; an inner block takes part in two calls only |
| C56 | `psim D R p q`, a simulation between programs over two sample types, for every method, constructor and planner call; maps, scaling by powers of two and SIMD lanes are relations |
| C57 | C56 with the real numbers on one side and C01-C18 for them; interval operations enclose the real ones |
| C58 | `closed`, an induction over the planned power-of-two algorithms for properties of the functions they compute, with depths of values (`leveled`) and, from below, an explicit path |
| C59 | the same induction with magnitudes as depths, and C56 with the relation "equal or overflowed" |
| C60 | the induction of C58 in pairs of a rounded and an exact value (`Both`), with the distance of the two as depth; the exact half is the reference by C57, the rounded half is the planned method by C56 |
| C61 | the weighted bounds of C48 and the energy identities of `Energy.v` compose without loss: type 2 is an isometry to the weighted norm and type 3 back; induction on the number of trips |
| C62 | the confinement lemmas of `Confine_Meth.v` again with an extra region for the state of the foreign code; foreign code is any program that keeps to its slices and that region |
| C63 | upper bounds on accesses composed along `bind` and the loops (`Cost.v`, `Cost_All.v`), then the planner's choice of algorithm for each length |
| C64 | the kernels of a transform and of its inverse are transposes up to the weights (`Adjoint.v`); energy from transposition and the round trip; the MDCT by exchanging sums, its energy from time-domain alias cancellation |
| C65 | "zero, or bad" relates exact values to values of the arithmetic and is respected by all operations (C56), so a nonzero entry of the exact transform of a unit vector is bad in the arithmetic (`Spread.v`); `Spec_Binary.v` instantiates the arithmetic with `SpecFloat` of the standard library |
| C66 | `SpecFloat` is proved to round correctly from its definition by shifting bits (`Sf.v`), the literal for pi to be within half a unit in the last place (`Pi_Literal.v`), and the induction of C58 relates each IEEE value to an exact one (`Binary_Float.v`); the conversion of the length to `f64` must not overflow, hence lengths up to 2^890, which covers every `usize` |
| C67 | The `f64` values a table entry is computed from are shown not to overflow, underflow or become zero, so that each is the rounded exact one (`Binary_Naive.v`); then an induction over the loop bounds both the error and the magnitude of the running sum, and `Binary_Naive_Plan.v` goes through the planner's choices |
| C68 | The relation "equal or opposite, up to the sign of zeros" is compatible with the operations of `SpecFloat` in the sense of C56 (`Symmetry.v`); zeros are opposite to themselves, so results of zeros are too, and C66 and C67 exclude NaN (`Symmetry_Silence.v`) |
| C69 | From ten laws of the signs (`sign_laws` in `Mirror.v`) the symmetries are proved of each butterfly (`Mirror.v`) and of one step of the split radix (`Mirror_Split.v`); the induction of C57 composes them; `SpecFloat` meets the laws (`Mirror_Binary.v`), doubling is exact and C66 excludes NaN (`Mirror_Constant.v`) |

## 4. Where the code falls short

Found while proving, each stated as a theorem ending in `_refuted` or as an exact characterisation:

* Large DST1, DST6 and DST7 read scratch cells they have not written: a non-zero scratch gives wrong results (C24).
* Split radix DST2/DST3 negate or reverse the buffer before checking the lengths, so a rejected call leaves it changed
  (C26, C27).
* A split radix composed over an FFT conversion whose FFT wants in-place scratch reports too little scratch and always
  panics (C29). The planner never builds one.
* `plan_mdct` caches by length only: a second window for a length is ignored (C34).
* At length zero DCT3 and DST3 panic on an index, some conversions accept no buffer at all (C42).
* `MdctNaive` multiplies indices before reducing them: on a 32-bit target its forward transform panics in a debug build
  from length 65536 on; in a release build it is wrong there for every even length that is not a power of two (C52).
  The planner uses `MdctViaDct4`, which is not affected (C51).

## 5. Trusted base

Coq's kernel; the axioms printed by `Print Assumptions` for each theorem in `Properties*.v` (the standard library's
classical real axioms for statements about `R`, none for the structural ones except functional extensionality where
listed); the reading of the Rust code in the model files; the simplifications above.

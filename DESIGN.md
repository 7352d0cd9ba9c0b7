# Formal model of Badel2/enum_vec in Rocq (Coq 8.16.1)

Contents: [shape of the model](#shape) · [trusted base](#tcb) · [modelled / not modelled](#scope) ·
[conventions](#conv) · [plan and status per property](#plan) · [findings](#findings) · [seeded bugs](#seeded)

<a name="shape"></a>
## Shape of the model (`rocq/theories`)

Model (definitions only, each with the lines of /repo it models):

* `Machine.v`  outcomes (`Ret | Panic k | Abort | UB`), the state monad, `usize` arithmetic in both overflow-check
  profiles (debug panics, release wraps), block shifts/masks/casts modulo 2^W, and the configuration record `cfg`:
  block width W, usize width, overflow checks, Vec or SmallVec, growth and shrink oracles, allocator limit.
* `RVec.v`     the storage `Vec<StorageBlock>` / `SmallVec<[u32; 4]>`: contents and capacity, for an arbitrary growth policy.
* `Trait.v`    the `EnumLike` trait and its documented contract (`lawful`).
* `EnumVec.v`  every function of `enum_vec/src/vec_u32/mod.rs`, statement by statement, in a state+outcome monad (the
  state left behind by a panic is a result). The siblings made by `gen.sh` are the instances W = 8, 16, 64, 128 and `small`.
* `EnumLike.v` `enum_like/src/lib.rs` (implementations for (), bool, Option, Result, tuples, arrays; `Values`;
  `PackedU8/16`) and the code `enum_like_derive/src/lib.rs` generates, as evaluators over a universe `ty` of types.
* `Builtin.v`  the macros `tuple_impls!`, `array_impls!`, `reverse_idx_*` of `enum_like/src/lib.rs` at the level of memory: which slots are
  uninitialised, what is moved out, what is dropped.
* `Derive.v`   the procedural macro itself, `enum_like_derive/src/lib.rs`, function by function, from a declaration to the
  tokens of the impl; and the Rust these tokens are written in (parser with precedence, usize evaluation, struct literals, match).
* `EnumSet.v`  `enum_set/src/lib.rs` over the contract of `bit_set::BitSet`; programs on pools of sets.
* `SetClient.v` adaptive clients of EnumSet, and their specification with sets as predicates.
* `Storage.v`  the storage accessors `storage`, `storage_mut`.
* `Format.v`   the `Debug` implementations of EnumVec and EnumSet over std's Debug builders, `{:?}` and `{:#?}`.
* `Program.v`  programs: any sequence of safe calls on a pool of vectors, run on the model (`m_run`) and on lists (`s_run`).
* `Client.v`   clients that choose each call from all results seen so far; conditions on single calls, independent of the state.  Also clients that survive capacity overflow panics, and what a failed call may leave behind.
* `Adaptive.v` the same clients with the conditions of Guard.v and the demands of Memory.v checked along the run (PropAdaptive.v).
* `Unsafe.v`   clients that also use the unsafe accessors; what they know of each slot; the contract they keep.
* `User.v`     the calls that run user code, with that code arbitrary (state, panics, lies); clients over them; truthful code.
* `Relate.v`   corresponding calls and answers on vectors of two element types (C56).
* `Local.v`    which storage blocks each call may change (C57).
* `Profile.v`  debug and release builds of the same target (C58).
* `Allocator.v`  the same crate over another container and allocator (C59).

Specification (no reference to how the code computes):

* `Spec.v` what `Vec<T>` does, on lists; `EnumSpec.v` the list of values of a type in order, mixed radix numbers;
  `LayoutSpec.v` packed numbers; `DeriveSpec.v` the type a declaration declares; `Memory.v` how much memory each call may ask for; `Capacity.v` which calls may move the storage and how much is copied; `Inline.v` which calls a SmallEnumVec serves from its inline buffer; `FormatSpec.v` the Debug text; `Claims.v` vocabulary (`holds`, `valid`, `result`);
  `Full.v` full statements of the properties that turned out false; `Guard.v` which calls the partial theorems cover.

Proofs: `*Facts*.v`, `Witness.v`, `Config.v`.  Theorems only: `Prop*.v`, one section per property, with the theorem
`Cnn_...`, an example `Cnn_example` showing that a concrete non-trivial case meets the hypotheses, and `_refuted`
theorems where the property is false. `Audit.v` prints the assumptions of each.

`Conformance.v`, `Conformance2.v`: the unit tests and documentation examples of /repo (enum_vec, enum_like, the derive tests and
the card game of example/), transcribed call by call and run on the model in the six storages, debug and release. These are
tests, not proofs: they tie the model to the code, since the authors' tests are known to pass on the Rust code.

<a name="tcb"></a>
## Trusted base

* Coq 8.16.1's kernel (with the standard library's `vm_compute` conversion, used in examples and counterexamples).
* `Print Assumptions` of every theorem named in MANIFEST.json prints "Closed under the global context": no axiom of the
  standard library or of any other library is used. (`rocq/theories/Audit.v` contains the commands; `make` prints them.)
  A listing of all axioms *present* in the loaded libraries shows those of Coq.ssr.ssrunder and similar; no theorem uses them.
* The correspondence between the definitions in the model files and the Rust text, by reading; each definition cites lines.
* The Rust semantics written down in `Machine.v` and `RVec.v`: overflow profiles, shift masking, what Vec/SmallVec
  methods do, `get_unchecked` outside the initialised length is UB, allocation above isize::MAX bytes is a
  "capacity overflow" panic, a refused allocation aborts the process.
* For EnumSet: the documented contract of the external crate `bit-set` (not in /repo): a set of usize iterated in
  increasing order, compared and hashed as the sequence of its elements.

<a name="scope"></a>
## What is modelled and what is not

Modelled: everything executable in `enum_vec/src/*/mod.rs` outside `#[cfg(test)]` (constants and compile-time checks,
all public and private methods, `Extend`, `FromIterator`, `From<Vec>`, `Into<Vec>`, `IntoIterator` twice, both iterators,
`PartialEq`, `Hash`, derived `Clone`, `Default`, `Debug`; `enum_vec!` is from_elem/from_slice); `enum_like/src/lib.rs` implementations,
`Values`, `PackedU8/16`; derive for C-like enums, enums with data, tuple/unit/named structs; all of `EnumSet`.

Not modelled, or simplified:

* Commented-out code (`iter_mut`, `EnumVecIterMut`, `Rem<usize>`), benches. Tests and examples are run on the model (Conformance.v).
* std's Debug builders (DebugList, DebugSet, PadAdapter) are modelled from their source, writing to a String; an element's Debug may fail, not panic (C50).
* In EnumVec.v `to_discr`/`from_discr` of element types are pure; `from_discr` may panic (where the contract lets it), `to_discr` does not.
  enum_like's own implementations are proved to be like that (C30-C32). User.v (C54, C55) drops this: there they, Clone, closures,
  iterators and hashers are arbitrary code with state.
* Iterators handed to extend/from_iter are finite sequences followed by None or a panic, with any size hint. Endless ones are
  covered by their finite prefixes (C13_endless: a long enough prefix already makes extend fail).
* Closures in EnumVec.v are deterministic functions of what they have been shown; they may panic (arbitrary ones: User.v). Threads: the API has no shared mutation.
* Addresses, alignment and the inline buffer of SmallVec are not modelled, only contents, length and capacity.
* Arrays' `from_discr`/`to_discr` use `mem::uninitialized`/`mem::replace`. C30 leaves the garbage out; C47 (Builtin.v) models it, under the
  lenient reading: uninitialised memory is UB when used or dropped. (Today's reference is stricter for bool and enums.)
* The derive macro is modelled twice: as combinators over types (EnumLike.v, used by C30-C32) and token by token (Derive.v);
  C46 proves the second means the first. Generic declarations are covered for every instantiation (C46_generic). Attributes and error texts are not modelled; a path
  `<T as EnumLike>::NUM_VARIANTS` is one token.
* usize has 32 or 64 bits. `setting` (Claims.v), which nearly all theorems assume, is: a sane configuration, no allocation above
  isize::MAX bytes (`alloc_isize`; std guarantees it), a type that compiles and has at most 2^32 values, and the trait's contract.
  So the theorems cover vectors of any length up to usize::MAX, also on 32-bit targets.  Where the code itself fails in the last
  incomplete block below usize::MAX (insert, remove, append, shrink_to_fit, with_capacity), the theorem asks for `countable n`:
  n <= P * (usize::MAX / P).
  `roomy`: the allocator never grants so much that the number of *bits* exceeds usize (any 64-bit target: no 2^61-byte allocation);
  then every length is countable. Assumed only where conditions are on single calls, not on the run: the `_client` and `_survivor` theorems of C21, C22, C23, C39,
  C46_vec and C29 (types with more than 2^32 values exist on 64-bit targets only).  C41 is about what happens without it.
* BitSet's memory use and panics are not modelled, nor are size hints of its iterators other than those of `iter`.

<a name="conv"></a>
## Conventions

`get_unchecked(i)` outside the initialised length is `UB`; checked indexing outside is `Panic PIndex`. `expect("capacity
overflow")`-like panics are `PExpect`, the container's own `PCapacity`. A panic returns the state reached (what
`catch_unwind` exposes). A property that is false of the code keeps its full statement (`Full.v`), refuted by a theorem
`_refuted` with a concrete or general counterexample, and what is true is proved with suffix `_partial`.

<a name="plan"></a>
## Plan and status per property

| id | model | proof | status |
|---|---|---|---|
| C01 | BITS_PER_ELEM sum, compile-time checks | arithmetic; false above 2^32 variants on wide storages | partial |
| C02 | get/set/raw accessors | bit lemma: slot view of a block | proved |
| C03 | push, pop, grow_if_needed, len | representation relation `holds v l` | proved |
| C04 | insert | slot shifting lemma + two loop inductions; false for index > len (appends) and BITS = W (corrupts/panics); PropExact.v states exactly what happens there | partial |
| C05 | remove | as C04; false when unused high bits are dirty; PropExact.v states exactly which elements go wrong, on every vector | partial |
| C06, C07 | swap, swap_remove, truncate, clear, resize | slot view; fill pattern lemma | proved |
| C08, C28 | retain, for_each; stateful, panicking closures | loop induction | proved |
| C09 | append | false for block-aligned destinations in the Vec storages; proved otherwise | partial |
| C10 | split_off | false for every non-empty tail (UB) | partial |
| C11, C12 | extend_with_value | contents proved; allocation is quadratic (refuted, with the amount) | proved, partial |
| C13, C14 | extend over iterators | C13 except a usize::MAX corner; C14 false (stale elements; PropExact.v states exactly which) | partial |
| C15, C16 | iterators as state machines | refinement to a deque | proved |
| C17, C18 | any/all bit tricks | arithmetic on blocks as sums of slots | proved |
| C19, C20 | eq, hash | slot view | proved |
| C21, C42 | pool machine: any program of safe calls | invariant `valid`: storage covers the length | partial (3 excluded calls, refuted) |
| C22, C23, C39 | pool machine refines lists | simulation by induction on programs | partial (excluded calls refuted) |
| C24..C27 | clone, capacity, reserve | growth oracle; C25 false in the last block below usize::MAX on 32-bit targets; C26/C27 false at corners (PropExact.v: reserve/extend reallocate iff len + k >= capacity()) | proved / partial |
| C29 | element types with more than 2^32 values | refuted for u64/u128; PropExact.v states exactly what set and push do there | partial |
| C30..C32 | universe of types with an evaluator for the generated code | induction on types, mixed radix lemma | proved |
| C33, C34 | Values | C34 false for huge n | proved, partial |
| C35 | PackedU8/16 | from the contract | proved |
| C36, C37, C43 | EnumSet over BitSet's contract, programs on pools of sets | invariant; C43 false for from_bit_set with foreign numbers | proved, partial |
| C38 | blocks_for_elements, storage size | arithmetic | proved |
| C40 | unsafe accessors | slot view | proved |
| C41 | lengths near usize::MAX | refuted on 32-bit targets; exact limit in PropExact.v | partial |
| C44 | allocation requests of every call vs `Memory.v` | weakest-precondition style: no failure when the demand is granted | proved |
| C45 | `storage`, `storage_mut` (Storage.v), plain-arithmetic layout in LayoutSpec.v | arithmetic of bit groups | proved |
| C46 | Derive.v: the macro as a token producer; parser and evaluator of the emitted Rust | parser lemma per operator, induction on arms; equality with the combinators of C30-C32 | proved |
| C47 | Builtin.v: index lists of the macros, slots of an array (uninitialised / moved out), drop | induction on types and index lists; false for arrays of elements that need drop | partial |
| C48 | adaptive clients on pools of EnumSets | refinement to sets as predicates (SetClient.v) | proved |
| C49 | capacity of every vector in a pool, growth oracle (Capacity.v) | each method preserves a preorder on capacities; induction on programs | proved |
| C50 | the Debug implementations driving std's DebugList/DebugSet and PadAdapter (Format.v), text in FormatSpec.v | piecewise = linewise indentation; induction on elements | proved |
| C51 | capacity of SmallVec storage against Inline.v; allocator and growth policy arbitrary | the proof of C44 with the invariant "capacity = 4"; C51_exact: both directions, the calls that fail the test spill | partial: false for exactly full vectors |
| C52 | element width and elements per block against README arithmetic (EffFacts.v) | arithmetic, all widths | partial: three figures of the README are wrong |
| C53 | the unsafe accessors as calls beside the safe ones; specification: slots with known or unknown numbers (Unsafe.v) | simulation; calls see only the vectors they mention | proved |
| C54 | user code as arbitrary state-passing code that may panic, lie, never end (User.v) | invariant over adaptive clients; with pure code the functions equal those of EnumVec.v | proved |
| C55 | truthful user code that may panic at any call, with a log of what it was asked | the calls follow those of EnumVec.v until the panic; induction on the loops | partial: push, insert, extend, resize (finding 20) |
| C56 | pairs of runs on two element types (Relate.v) | relational parametricity: each method maps corresponding arguments to corresponding outcomes | proved |
| C57 | blocks a call may change (Local.v) as a predicate on lengths and arguments | frame rules for the machine monad, method by method, then per call of a program | proved |
| C58 | one target compiled with and without overflow checks (Profile.v) | relation "equal unless debug overflows", a congruence for the machine monad | proved |
| C59 | two runs over containers that grow, shrink and fail differently (Allocator.v); vectors related when equal but for their capacity | a congruence for the machine monad, then step and program simulation up to the first failure for lack of memory | proved |

Nothing in the list is inexpressible in the model.

<a name="findings"></a>
## Findings (departures of the code from what a user would expect; all proved)

1. `split_off(at)` with at < len is undefined behaviour, always (C10).
2. `append` to a block-aligned vector (Vec storages) leaves the source with its length and no storage: reading it is UB (C09, C21).
3. `remove` shifts dirty unused bits into elements (C05, C22); `insert`, `from_elem`, `resize` make them dirty.
4. `insert` with elements as wide as the block corrupts (release) or panics (debug) (C04).
5. `insert(index > len)` appends instead of panicking (C04).
6. `from_elem`/`resize` allocate quadratically many blocks (C12).
7. `extend` bumps the length before writing: a panicking or lying iterator leaves stale elements (C14).
8. `reserve`/`extend` with one element per block and len + k = usize::MAX wrap to 0 blocks (C26, C13, C42).
9. u64/u128 storages accept types with more than 2^32 values and corrupt neighbours (C01, C29).
10. On 32-bit targets `shrink_to_fit` near usize::MAX elements drops storage: UB (C41).
11. `extend` and `reserve` reallocate when len + k = capacity() (C27).
12. `Values::nth` overflows for huge n: panics in debug, rewinds in release (C34).
13. `EnumSet::from_bit_set` accepts foreign numbers; iterating then panics (C43).
14. `values()` panics at numbers a user's type does not use (C33).
15. On 32-bit targets, in the last incomplete block below usize::MAX elements: `insert` inserts at the start of the block (release) or
    panics after appending (debug), `remove` takes out the first element of the block (release) or panics (debug), `with_capacity`
    reserves less than asked, `append` to an empty vector loses the storage of that block (UB on reading), and `append` beyond
    usize::MAX elements drops elements silently (release) or loses the source (debug) (C04, C05, C25, C09; PropLimit.v).
16. `to_discr` of an array (length >= 1) whose elements need to be dropped drops uninitialised memory: UB. EnumSet accepts such types (C47).

17. The documentation of `EnumValues` lists the values of Option<Option<Option<bool>>> with None first; the code (and its test) has None last (C30, Conformance2.v).
18. A SmallEnumVec filled to exactly its inline size (128 bools) by collect, extend, from_elem, resize or reserve spills to the heap (C51).
19. The README's efficiency limits for EnumVec16, 32 and 64 (4, 11, 22 bits) should be 5, 10 and 21 (C52).
20. `push` counts the new element before it calls `to_discr` (mod.rs:352-359). If `to_discr` panics and the caller catches it, the vector
    has one more element: whatever bits are there, for example an element popped before. The same for insert, extend and resize (C55).

<a name="seeded"></a>
## Seeded bugs

`seeded/LOG.jsonl`: one line per mutation of the model (made in a scratch copy by a script that replaces each proof that
breaks by an axiom and then asks `Print Assumptions` which theorems depend on it).

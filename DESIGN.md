# Formal model of distributed-vector-ole in Rocq (Coq 8.16.1)

## 1. Approach

The library is C++: local computation (gf128, GGM tree, hashing, AES-CTR
generator) plus two-party protocols (all-but-one random OT, SPFSS, Gilboa
product, MPFSS, vector OLE).  The model is written function by function as total
Gallina functions over `list`, `N`, `Z`, records, and an outcome type

    res A = Ok a | Err status | UB reason

`UB` is used for out-of-bounds accesses, failed `assert`/Eigen assertions and
signed overflow, so memory-safety claims are ordinary theorems
(`f args <> UB _`).  Theorems live in files `Properties*.v` that contain nothing
else than statement, a one-line proof by reference, `Print Assumptions`, and a
non-vacuity `Example`.

Protocol parties are terms of a small process type

    proc R = Ret r | Send m k | Recv k | OtRecv .. | Rand k

A configuration is two processes, two FIFO queues and two random tapes.  A
schedule is any interleaving of the two parties' steps.  One theorem
(confluence, C46) shows that the outcome does not depend on the schedule, the
protocol theorems then speak about all schedules.  Theorems about one party
alone (C43, C44, C47-C50, C60-C68) quantify over all messages that the other
party may send, honest or not (`possible` in VoleSpec.v).

The OpenMP loops are modelled a second time, as threads that read and write
single cells of a shared memory (ParModel.v, ParLoops.v).  C52 proves that every
interleaving is free of data races and ends in the memory that the sequential
models of the other files compute.

Expectations of a user that the code does **not** meet are stated with the exact
guard under which they hold, together with a theorem with suffix `_refuted`
that exhibits the violation in the model.

### External pieces, treated as universally quantified parameters

| External | Treatment |
|---|---|
| AES block cipher (OpenSSL) | arbitrary function `N -> N -> N` (key, block) with 128-bit results |
| emp-ot (IKNP OT / COT) | ideal functionality: 1-of-2 OT returns the chosen message; correlated OT returns r or f(r) for a random r |
| `RAND_bytes`, PRG inside emp | random tape of the party, universally quantified; C85 models the bytes, the int count and failures of `RAND_bytes` |
| `std::log`/`log2`/`pow`/`erf`/`sqrt` | level and bucket counts are arbitrary integers in most models; in `Float*.v` doubles are modelled, and these functions are arbitrary functions with an error below one unit in the last place (`accurate`) |
| `std::uniform_int_distribution` | arbitrary function of the generator's state; in range where a theorem needs it (`good_setting`, `good_machine`); two versions of libstdc++ are modelled in `UniformModel.v`, and C89 shows that they meet these conditions |
| uninitialised memory | arbitrary values (`c_junk`) |
| order of evaluation of function arguments | a parameter (`e_high_first`), see C48 |
| iteration order of `absl::flat_hash_set` | arbitrary permutation |
| boost serialization / TCP channel | reliable FIFO queue of structured messages |
| NTL `ZZ_p`, `zz_p` | integers mod the installed modulus (constant during a run, except in the cache property) |
| OpenMP | arbitrary division of the iterations among threads, arbitrary interleaving of memory accesses (C52); static schedule = in-order contiguous chunks where the code concatenates per-thread results (C29) |
| Eigen | element-wise lists, size assertions = UB; its parallel product is in `ParEigen.v` |

Security parameters: the code stores `statistical_security` as a double s and
compares `log2` values.  The model works with K = 2^s as a rational, the
comparisons become exact comparisons of K with integers.  `Float*.v` models the
double arithmetic of these comparisons, of the numbers of levels and of the
numbers of buckets, and C70-C76 relate it to the other models.

## 2. Files

`XModel.v` is the model, `XSpec.v` the vocabulary in which the properties are
stated, `XProofs*.v`, `XFinal.v` the proofs, `PropertiesX.v` the final theorems.

| File | Content |
|---|---|
| `Base.v`, `BaseFacts.v`, `ListFacts.v`, `SumFacts.v`, `NBits.v` | outcomes, indexed list access with UB, loops, wrap-around; facts |
| `Gf128*.v`, `EmpBlockModel.v` | gf128.h/.cpp, the XOR operator and conversions of emp::block |
| `Ggm*.v` | ggm_tree.h/.cpp |
| `Scalar*.v`, `Pack*.v` | scalar_helpers.h, ntl_helpers, gilboa_internal.h |
| `Rng*.v` | aes_uniform_bit_generator |
| `Cuckoo*.v` | cuckoo_hasher |
| `Proc*.v`, `MeetProofs.v`, `Trace*.v` | processes, channels, schedules, confluence; what an arbitrary peer can observe |
| `Rot*.v`, `Spfss*.v`, `Gilboa*.v`, `Mpfss*.v` | protocols |
| `VoleModel.v`, `VoleSpec.v` | distributed_vector_ole.h/.cpp |
| `VoleProofs.v`, `VoleMeet.v`, `VolePair.v`, `VoleFinal.v`, `VoleSucceed.v` | two honest parties |
| `VoleSolo.v`, `VoleHistory.v`, `VoleCode.v`, `VoleFail.v` | one party, arbitrary peer |
| `UseSpec.v`, `VoleUse.v` | one party: behaviours, and results with the random values drawn |
| `Pattern*.v` | one party: kinds, lengths and order of messages |
| `Cost*.v` | one party: exact communication of successful calls |
| `Safe*.v` | one party: arbitrary contents from the peer |
| `Transport*.v` | two parties: other connections, bounded buffers |
| `Stop*.v` | two parties: one of them stops |
| `Later*.v` | two parties: further calls that need not match |
| `View*.v` | distribution of the value provider's view |
| `Hide*.v` | what the receiver of trees and the index provider see |
| `Delta*.v` | what the sender sees for different deltas of the receiver |
| `Secret*.v` | what the receiver sees for different secrets of the sender |
| `Uniform*.v` | std::uniform_int_distribution of libstdc++ and the numbers it draws |
| `Rep*.v` | random bytes, hashing, archives and printing of gf128, NTLTemp |
| `VoleToy.v`, `VoleWitness.v` | executed sessions: non-vacuity and `_refuted` witnesses |
| `Float*.v` | computations with doubles: rounding, levels, security checks, numbers of buckets |
| `Par*.v` | shared-memory threads, the OpenMP loops, Eigen's parallel product |
| `Properties*.v` | final theorems |

## 3. Per property

| Id | Model | Proof |
|---|---|---|
| C01 | word-level loop of `operator*=` | loop invariant: shifted = a*X^k mod F, result = sum of selected; spec = carry-less product on N, congruence mod F, uniqueness of remainder |
| C02 | clmul intrinsics on N | both equal the unique remainder |
| C03 | words + C01 | ring laws of carry-less polynomials transported through congruence; no zero divisors from C04 |
| C04 | `inverse` loop | result = a^(2^128-2); X^(2^128)=X by computation; Frobenius fixed idempotents are {0,1} by a certified linear map |
| C05 | powers of 2 | order of X is 2^128-1: X^((2^128-1)/p) <> 1 for each prime factor p; primality of the factors by trial division in the kernel |
| C06 | constructors, as_words, conversions | bit arithmetic |
| C07 | AllocateLevels, ExpandSubtree, Create | loop invariants; level count an arbitrary oracle |
| C08 | GetValueAtNode | case analysis |
| C09 | XORBlocks | induction over the level |
| C10, C11 | CreateFromSiblingWiseXOR | invariant: after level l the tree equals the punctured tree |
| C12, C13 | same, with UB | guards; counterexamples as `_refuted` |
| C14-C16, C55 | SendTrees/ReceiveTrees as processes | joint-run lemma, per-tree offset induction; relational for C16; int accumulation for C55 |
| C17-C19 | SPFSS processes | composition with C14; ring algebra |
| C20-C22, C53, C54 | ScalarHelper instances, integer types with their promotions | N bit arithmetic, per type; counterexamples |
| C23-C25, C56 | Gilboa processes | induction over blocks and bits; ideal OT/COT |
| C26, C27 | CanBeHashedInto | counting residues; counterexample |
| C28-C32, C57 | CuckooHasher | loop invariants of the eviction loop |
| C33-C37, C59 | MPFSS processes and object state | composition with C17, placement lemma C30/C32 |
| C38-C41 | generator state machine | invariant over call histories |
| C42, C45, C48 | two VOLE objects, lists of calls in any roles | induction over the calls with an invariant relating the two objects; C48 also one object |
| C43, C44, C47, C49, C50 | one VOLE object, all messages | induction over histories; ghost logs `s_made`, `s_used` (and of the receiver) record produced and consumed elements for C44 and C47 and influence nothing |
| C46 | process calculus | diamond lemma |
| C51 | cache of ntl_helpers | invariant over histories |
| C52 | threads with shared memory | footprints of the iterations are disjoint; commuting steps give race freedom and a unique final memory |
| C58 | processes against arbitrary peers | trace equality |
| C60-C63 | one VOLE object, all messages | loop inductions for the failing paths; executed sessions of honest parties as witnesses |
| C64 | one VOLE object, all messages | the check is passed on every path to success; C26 |
| C65, C66 | processes | equality of processes, or equality up to extensionality (`alike`); after failed precomputations, by induction over the history |
| C67, C68 | one VOLE object, all messages, with the list of random values drawn (`ran`) | inversion of the process; the Run loop from any accumulator |
| C69 | two VOLE objects, orderly lists of calls | the induction of C42 in a strict mode that excludes errors |
| C70 | doubles (Flocq), libm functions with an error below one ulp | relative error of the quotient against the gap between n and the next power |
| C71 | as C70, with infinities and NaN | error bounds of 2^-42 per operation; sandwich with the exact check; C26; hybrid argument of C94 |
| C72 | as C71 | remainders of uniform 128-bit numbers; error bounds; hybrid argument of C94 |
| C73 | doubles, the error function given by its derivative | monotonicity and Lipschitz bound of erf, erf(-2) from a Taylor polynomial, interval reasoning |
| C74 | the search loop with doubles | induction over the rounds; saturation at 2^53 |
| C75 | the library's parameters with C70-C73 | bounds of C72 and C73 for the five noise sizes |
| C76 | Create functions on doubles with infinities and NaN | case analysis, monotonicity of rounding |
| C77 | the member functions, run twice on objects that differ only in the contents of vectors | step-by-step relation with failure as an early end; induction over the calls |
| C78 | `VoleModel`, `CostSpec`: the steps of one party | inversion of completed executions, level by level and expansion by expansion; the cached buckets stay those of the object's hash function through all histories |
| C79 | all protocol models, `SafeSpec`: executions with given messages | weakest preconditions over the list of expected message shapes, level by level and expansion by expansion; an invariant on the lengths of the stored seeds through all histories |
| C80 | `TransportSpec`: runs with stored and directly passed messages on one or two connections | all joint runs of the protocol proofs are sequences of hand-overs; by a diamond argument every reachable state can go on without storing anything but tokens |
| C81 | `ViewSpec`: fractions of the lists of random blocks; `ot_view` of the Gilboa model | a bijection of the blocks moves one vector's view to the other's unless a packed slice falls into the last, incomplete copy of the field (union bound); counting of two witnesses |
| C82 | `HideSpec`: `watch` returns what a party saw; `differ_at_missing` | reprogram the cipher at the parent of each missing leaf: all other nodes, the chosen xors and so the view are unchanged; the missing leaf takes any value |
| C83 | as C82 | the missing leaf absorbs the difference of the shares; empty output: the run computed |
| C84 | as C82, over `MpfssModel` with histories | in an empty bucket the share is u*x - w = -v for every x, elsewhere C83 applies; hashing uses another key |
| C85 | `RepModel`: memory as bytes, `RAND_bytes` with an int count and failures | bytes and elements are in bijection; the call with a wrapped count computed |
| C86 | `RepModel`: hash state machine, archive, decimal text | induction on sequences; decimal conversion of the standard library |
| C87 | `RepModel`: per-thread modulus and temporary | induction over histories |
| C88 | all of `VoleModel` in two worlds (`DeltaSpec`) | rules for relating two runs step by step (`DeltaLogic`), each step explained by changing the receiver's fresh random values, then induction over the calls |
| C89 | `uniform10`, `uniform11` (libstdc++) over `RngModel`; `VoleModel` | the words delivered are consecutive words of the counter mode (C38); counting words per number; bijections of streams; the histories of C67 and C48 |
| C90 | `ParEigen` (Eigen's row-major product and the region of Create) over `ParModel` | invariant of a region: a thread is about to install the modulus or has it; then the loop of independent rows as in C52, with the order of the elements irrelevant |
| C91 | `SecretSpec` (possible secrets, sender's vector) over the two-party model of `VoleModel` | relational invariant of two runs, one with the sender's secrets and one with others, with the same view of the receiver; Gilboa's masks are uniform, the noise is masked by the first seed, other messages come from uniform blocks |
| C92 | `RngModel` | from C38: the words of block i are the cipher of nonce + i, and the nonces below the limit are different |
| C93 | `RotInt`, `SpfssInt`, `MpfssInt` (int sizes, offsets and loop bounds of both sides) | equality with `RotModel` below the boundary (bisimilar processes complete alike), induction over the trees for the overflow |
| C94 | `JointSpec` (fractions of lists), the checks of `RotModel` and `VoleModel` | induction over the number of elements, exchanging one element at a time; C26, C55, C64 |
| C95 | `TransportSpec`, `StopSpec`: a party is replaced by one that does nothing | what the other party does afterwards it could have done before, with more messages in the queues; C80 |
| C96 | `LaterSpec`: sessions of which each party makes more calls | a longer session does what the shorter one does and then goes on; C80; runs are confluent |
| C97 | `VoleInt`: the generator on top of `MpfssInt` | the cached state always fits, so each batch is the one of `MpfssModel` (C93); the processes are `alike`; C42 and C45 carry over |
| C98 | `roles_fit` (`LevelSpec`) over the sessions of C42 | invariant of both objects: each role's seeds have the size of the level of its last precomputation, the code generator that of the last one in either role; joint runs are possible runs of each party, so the level of C78 applies |
| C99 | `alike_up` and `same_elements` (`SplitSpec`) over the histories of C78 | induction over the rounds of the first call: both sides take the same part of the cache or make the same expansion; the rest of the single call and the second call differ by a prefix of the result; the invariant bounds the batch size from below, so neither loop runs out of rounds |
| C100 | `divided`, `gathered` and `divided_end` (`DivideSpec`) over the two-party sessions of C42 | C99 by induction over the list of sizes; processes that are alike make the same steps in a session (simulation), so the sessions end as the one with a single Run does (C69) |

All properties are expressed in the model; none is left out as not applicable.
Computational security is not claimed anywhere. The secrecy properties C16, C19,
C25, C36, C58, C77 are about views, for every fixed choice of randomness or with an
explicit bijection of the randomness; C81 bounds a statistical distance; C82-C84 show
that another secret explains the same view when the block cipher is replaced by
another function (the deterministic core of a random-function argument, with the
freshness conditions it needs stated as hypotheses).

## 4. Trusted base

* Coq 8.16.1's kernel, including its virtual machine (`vm_compute` is used in
  executed examples, `_refuted` witnesses, and in C04/C05).  `native_compute` is
  not used, no kernel check is switched off, no plugin is loaded beyond those of
  the standard library.
* `Print Assumptions` stands below every theorem in `Properties*.v`.  For C01-C69
  and C77-C100 it prints "Closed under the global context": no axiom is used, and these
  theorems import the standard library only.  For C70-C76
  (`PropertiesFloat.v`, `PropertiesFloatJoint.v`), which are about real numbers, it lists these axioms of
  the standard library, and no others: `ClassicalDedekindReals.sig_not_dec`,
  `ClassicalDedekindReals.sig_forall_dec`,
  `FunctionalExtensionality.functional_extensionality_dep` and
  `Classical_Prop.classic`.  `Float*.v` import Flocq (rounding) and, for the error
  function, Coquelicot (integrals); neither adds an axiom.
* For C70-C76: the processor computes with IEEE 754 binary64 numbers, rounds to
  nearest, and does not fuse multiplications and additions; the C library's log,
  log2, pow, sqrt and erf have an error of less than one unit in the last place.
* `coqchk` lists fields of the form `Coq.ssr.ssrunder.Under_rel.*` in its
  context summary: they come from a module type of the standard library's ssr
  files, which are loaded but which no theorem here depends on.
* The transcription of /repo into the model.  Every definition of the model cites
  the lines it models.  What it leaves out is listed in the next section.
* The specifications (`*Spec.v`), which are meant to be read.

Constants such as the library's parameters are copied from
distributed_vector_ole.cpp.  `good_setting` states what the Vector-OLE theorems
assume about parameters and oracles; `library_parameters_are_good` proves it for
the library's parameters, provided that the floating-point computation of the
number of buckets returns between 1 and 19 times the number of indices, that
`log` gives trees with enough leaves (`supported_size`), and that the
distribution returns numbers in range.  C75 proves the first two, and
C75_library_draws all three for the distributions of libstdc++.

## 5. What is modelled, and what is not

Modelled: all functions of gf128, ggm_tree, aes_uniform_bit_generator,
cuckoo_hasher, all_but_one_random_ot, spfss_known_index,
scalar_vector_gilboa_product, mpfss_known_indices, distributed_vector_ole, and
internal/*, apart from the following.

Not modelled:

* tests, benchmarks, experiments, build files; example/example.cpp (which passes x to
  `RunReceiver`, a parameter that the function no longer has);
* allocation failures, null channel pointers, exceptions of Boost, timing;
* bytes on the wire: a message is a structured value (a vector, blocks, bytes).
  Each direction is one unbounded FIFO queue; C80 shows that nothing changes with
  separate connections for OTs and other messages and with bounded buffers;
* which connection the keys of the trees use: they travel with the OTs in the code, and
  count as ordinary messages in C80; `recv_data`, which reads a fixed number of bytes,
  reads a whole message in the model;
* connections that are closed: when a party stops (C95) its connection stays open;
* emp-ot: the ideal functionality; the OT sender does not wait for the receiver
  (in C80 it may have to), and malicious behaviour inside OT extension is out of scope;
* doubles, outside `Float*.v`: `statistical_security` is the rational K = 2^s,
  and the results of floating-point formulas are oracles.  In `Float*.v`
  conversions of doubles to integers that are out of range, which are undefined in
  C++, return what x86-64 processors return; C73 shows that they do not occur;
* NTL's modular arithmetic is arithmetic of integers mod the modulus, which does
  not change during a run (apart from C51, C87 and C90);
* int loop bounds and sizes of batches of trees and point functions, outside `RotInt.v`,
  `SpfssInt.v`, `MpfssInt.v` and `VoleInt.v`: C93 and C97 show what they change;
* the numbers inside some error messages;
* endless loops: `sample_indices` (rejection sampling) and the Run loops take a
  bound and return a UB outcome when it is exhausted; C47 shows that the bound of
  Run is never reached after a successful precomputation, the one of
  `sample_indices` is a parameter of the machine.

## 6. Wrong programs

`seeded/LOG.jsonl` records edits of the model that mimic realistic bugs. Read its
fields as follows.

- `theorems_failed`: the lemmas or theorems at which the rebuild stopped with an
  error. Nearly all of them are intermediate lemmas.
- `theorems_not_rebuilt`: the theorems of the claimed property whose files depend on
  a failing file, so that the rebuild did not reach them. They were not checked
  against the edit. Some of them are true of the edited program too, for instance
  statements about the specification alone (`C01_field_product_unique`).
- `survived`: true if the whole rebuild succeeded, or if only files of other properties
  failed. False only says that the rebuild did not succeed.
  Null: the rebuild was ended by hand, so there is no verdict.
- `theorems_tightened`: theorems strengthened because the edit got past them.

A failing lemma shows that the proof notices the edit. It does not show that the
property theorem is false of the edited program, since another proof might exist.
Where the edited program was evaluated on a case that contradicts the claim, or where
the rebuild ended at its time limit, `note` says so. Until the entries were split in
this way, `theorems_failed` held both lists, which overstated the evidence. The
property numbers of about eighty of the later entries were wrong and were corrected
from the descriptions of the edits.

A few edits were evaluated in a scratch copy in which every lemma is assumed and only
the `Example`s are checked. The note then lists the examples that changed, except
those of PropertiesHide, PropertiesUse and PropertiesFail, which need real proofs.
For some edits no example changes, so the examples alone would not have noticed them.

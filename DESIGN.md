# Formal model of quaternion-sequences in Rocq

Source: `/repo` (Rust).  Model and proofs: `/verif/rocq/theories` (logical name `Verif`).

## 1. Modelling conventions

* **Build profile.** The model is the *release* build (what `driver.sh` runs): `debug_assert!` is
  skipped, fixed-width integer arithmetic wraps.  `ModelDebug` adds the assertions of a debug build
  (C86, C87) and `ModelChecked` its overflow checks (C108).  `ModelSlurm` adds the flag -s of the scripts (C109).  `ModelFull` adds a disk that fills up (C110).
* **Panics** are `None` in an `option` monad.  `assert!`, explicit `panic!`, `expect`/`unwrap` on `None`
  and out-of-range indexing are modelled.
* **Integers.** `i8` values are `Z` with an explicit `wrap8` at every i8 arithmetic operation that can
  overflow.  `isize` accumulators are unbounded `Z` (they would need sequences longer than 2^55 to
  overflow).  `usize` lengths and indices are `nat` (`N`/`Z` for big numbers); subtractions that would
  underflow are `None` or excluded by an explicit guard, as said beside each definition.
* **f32 quaternions** are 4-tuples of canonical rationals `Qc` (exact arithmetic).  `ModelFloat` models the
  same functions in IEEE binary32 with the standard library's `SpecFloat`, and C53 shows that on the
  alphabet, for lengths below 2^22 (matrices: 2^21), both models give the same results.
* **f64 spectra** (FFTW) are modelled over the real numbers `R` with exact cos/sin.  FFTW itself and
  NaN are outside the model.  Rounding errors: `ModelNoise` writes the pair files again with an arbitrary arithmetic in
  place of FFTW and of +, - and * on f64, and C89-C92 hold for every arithmetic within an error bound.
* **Hash sets** are duplicate-free lists; every iteration over a hash set goes through an arbitrary
  order oracle `ord : list A -> list A` with `Permutation (ord l) l`.  Theorems quantify over the oracle.
* **Rayon** parallel folds are arbitrary binary reduction trees over the same items.
* **Files** are lists of lines (strings of bytes); `LC_ALL=C sort` is the sorted permutation
  w.r.t. the bytewise lexicographic order (unique, as the order is total); the directory listing order is arbitrary.
* **Mutation of local variables** is written in state-passing style; loops that write every index of a
  fresh vector once are written as a map over the index range.
* **while/loop** constructs are run with fuel; the theorems show that some fuel suffices (termination)
  and that the result does not depend on the fuel.

## 2. Files

See section 5 (kept current) for the list of model, specification, proof and statement files.

## 3. Plan per property

| id | model | method |
|----|-------|--------|
| C01, C02 | `QS` autocorrelations over Qc quaternions | conjugate symmetry R(n-t)=conj R(t) by reindexing |
| C03, C04 | tables QPLUS/Q24/QUADRUPLETS, string functions | finite tables lifted by induction on lists |
| C05 | verify_qts, to_qs | to_qs is left multiplication by a fixed unit; component-wise expansion |
| C06 | verify_qts, verify_wts | quaternions over the commutative ring of integer sequences under circular convolution (GroupRing.v); ring identities show a one-sided inverse is two-sided |
| C07, C08 | verify* | correlation symmetries, loop range lemmas |
| C09 | equivalent_* operations | reindexing of periodic sums |
| C10, C11 | class generation loop with order oracle | closure invariant, finite universe for termination, inverse operations |
| C12 | symbolic group with wrap8 | naturality of all operations under odd maps; evaluation at 32 for the refutation |
| C13, C14 | will_less_than | lexicographic order lemmas |
| C15, C16 | ns_canonical, sn_ss_canonical | orbit characterisation by sorted normal forms |
| C17-C21 | qt_canonical, reduce_* | commutation of slot operations and position operations |
| C22 | reduce_to_equivalence_set_dif | characterisation, then counterexample |
| C23 | rowsum | sum of periodic autocorrelations is the squared row sum |
| C24 | sum_of_four_squares loop | loop invariant with lexicographic measure |
| C25 | generate_rowsums | sorting by operations |
| C26 | gen_seq_rec | induction |
| C27, C28 | DFT over R, key computation | Wiener-Khinchin by reindexing; integer correlations for the other mode |
| C29-C33 | lines, sorted files, merge join | string lemmas, merge invariant, prefix-freeness of keys (the last field of a key is determined by the others and the row sums; for rounded spectra by inverting the cosine transform) |
| C34 | main::find_write_quad_seq | coset decomposition of the WT operations over the QT operations |
| C35-C40 | QHM, HM | block inner products reduced to correlations; i8 wrap modelled |
| C41 | graph_from_hm | explicit isomorphism <-> signed permutations |
| C42 | sequence_product | Chinese remainder reindexing |
| C43-C45 | exhaustive searches | induction on the search depth |
| C46 | coprime, COPRIMES | Euclid loop invariant |
| C47 | generate_matching_table | fold invariant |
| C48, C49 | mum.rs | ring computation |
| C50 | create, pair_single, pairs_rowsum, sortpairs.sh, join | the directory as a list of named files up to order; sorting of four numbers by cases; sort_dir replaces every .pair file (fold invariant) |
| C51 | equations.rs | the text is read back by an OPB reader (SpecEquations.v); linear equations against the correlation identities, exact meaning of the quadratic ones, evaluation of a lost quadruple |
| C52 | transpose | loop invariant |
| C53 | binary32 versions of the quaternion table, autocorrelations, is_perfect, is_odd_perfect, QHM::verify | SpecFloat addition and multiplication are exact on multiples of 1/4 below 2^22 (canonical significands); fold invariant with a growing bound |
| C54, C55 | all fourteen operations | word representation of each operation (OpFacts.v) |
| C56 | generate_equivalent_quad_seqs | fold invariant |
| C57 | find_williamson.rs | search-tree induction (SearchFacts.v) |
| C58 | has_sorted_rowsums, filter_by_rowsums | normal forms of row sums; evaluation of a length-15 witness |
| C59 | HM/QHM printing | loops as concatenations; prefix codes |
| C60 | is_perfect | n x n circulant over the quaternions embedded as commuting-ring matrices: a one-sided inverse is two-sided (GroupRing) |
| C61, C62 | MUM::from_qhm, mum_product | block computation through the operator homomorphism; Chinese remainder |
| C65, C66 | driver.sh: write_pairs, sort, join_pairs, find_write_quad_seq | composition of C25-C34, C18, C19 |
| C63, C64 | matrix_equivalence.rs | hash map as association list with replacement; C41, C15, C35 |
| C67 | pair keys of both match options | inverse cosine and sine transforms bound the difference of integer correlations below 1 (2 for even values) |
| C68 | driver.sh | two lists with one least representative per class are permutations of each other |
| C69 | equivalent, quad_swap, better_than of rowsum.rs (private, caller commented out) | symbolic execution of the selection sort; the twelve swap pairs are the even permutations |
| C70 | QS::is_symmetric, QuadSeq::is_symmetric | half of the shifts decide all; the letter of an entry determines its four signs |
| C71 | HM::from_williamson, the operations of equivalence.rs | for every generator explicit row and column permutations and signs of the block matrix; induction over the chain |
| C72 | driver.sh, pair_file_cleanup.sh, main on a tree of directories (ModelMain) | composition of C33/C34/C63/C71/C74 stage by stage with a frame condition |
| C73 | main, the str_to_* functions | inversion of the parser against an inductive relation of command lines |
| C74 | convert_qs_to_matrices | fold over the lines with C37-C39 |
| C75 | qhm_write_all | C56, types preserved along operations, C37-C39 |
| C76 | verify_qts_eq_wts | C06 |
| C77 | driver.sh for ws, convert hm | a symmetric sequence that starts with the longest run of -1 could be rotated to a smaller one; period-2 sequences cannot be complementary at shift 2 |
| C78 | exec of ModelMain | case analysis over the commands; a number is never printed with a leading zero |
| C79 | exec of ModelMain | case analysis over the commands and files; row sums by C24-C25 and the decimal printing, qhm-all by C75 |
| C80 | all lines printed into result.log (ModelLog), the regular expressions and counts of collect_results.py | every fixed text is checked not to contain the patterns by computation; a number, separating two texts, cannot create an occurrence; the reading of a log is a monoid morphism; stage by stage along C72 |
| C81 | write_pairs, sortpairs.sh, countpairs.sh | invariant of the counter over the row sum directories |
| C82 | pairs_rowsum, pair_single of ModelMain, the scripts (ModelScripts) | every job writes a fixed set of files of one directory, so the folder after the jobs is a function of the set of jobs; the join only depends on the directories up to order |
| C83 | pairs.sh, sortpairs.sh, join_pairs.sh, convert_hm.sh, convert_qhm.sh | every pair directory has a .pair file, so sorting is that of driver.sh; the additional log lines contain none of the patterns |
| C84 | driver.sh -d | the files a run writes are a function of the arguments; case analysis over the stages that may panic |
| C85 | sortpairs.sh twice, join | the second run creates a third sorted file, which has no tag |
| C86 | ModelDebug: the fourteen operations, classes, representatives with their assertions | the asserted quadruples are the variants of the operation's words; the class loop stays inside the type; fast and slow classes (C12) |
| C87 | ModelDebug: join, convert hm, qhm-all, driver.sh | the matches have normalised row sums; the results are least in their class, hence fixed by ns_canonical; C77 for the refutation |
| C88 | ModelSolver: the directories and files of find_with_rowsum::find | the bound of the filter holds for every +-1 sequence, so it keeps all of them; induction over the row sums from the right with the files of those not overwritten; names are injective; system_linear for the contents |
| C89 | ModelNoise: the functions behind `pairs` over a record of operations; SpecNoise: `accurate n e` bounds the error of each operation | error propagation to 20 n e; rounding of correlations is exact when the error is below 1/2; for the option PSD the exact values are never halves and finitely many, so some error bound leaves all roundings and comparisons unchanged except ties |
| C90 | ModelNoise.warnings: the two minima of find_write.rs:236-241 | a value that is half an integer would be an algebraic integer that is a fraction (kernel of the integer combinations of roots of unity modulo 2); far from a half the computed and the exact value round alike |
| C91 | write_pairs_f, sortpairs, match_pairs, join_pairs | the files of C89 with the exhaustiveness of C33; an arithmetic that errs upwards at 4n exactly loses every tie |
| C92 | the same | a vanishing coefficient of prime length makes n divide the row sum: (1-w)^n lies in n Z[w], by binomial coefficients; two vanishing spectra contradict the sum of squares 4n of the row sums |
| C93 | compute_complementary_*, matching_verify_cross_correlation | both half ranges of offsets suffice by symmetry; the identities with the opposite sign are those of the quadruple with Z negated, and both conventions mean amicable (C06) |
| C94 | ModelPanic: the commands once more, with the files they have written when they panic | agreement with ModelMain function by function; the steps between creating and writing a file cannot panic on the data at hand, except in convert qhm |
| C95 | driver_flags_x: driver.sh over ModelPanic | both scripts as maps on the one directory; equal step by step, the files on the way being readable; for the other types pairs leaves the directory of the row sums at which it panics |
| C96 | ModelJobs: pairs_rowsum and pair_single as lists of calls to the file system; SpecJobs: interleavings and the files on the disk | all jobs write the same bytes at the same offsets of a file, so every byte of a file is settled once the last writer has passed it, whoever truncated the file on the way; induction over the interleaving |
| C97 | driver.sh for two types or with other options | each list holds the least members of its classes; classes of quaternion type lie inside those of Williamson type, so least members of the large classes are least members of small ones; lists with one matrix per class match by a choice of equivalent members |
| C98 | ModelExplore: the loops of `main.rs` around the searches; SpecExplore: the lengths that are possible | multiplying a perfect sequence from the left by a unit keeps it perfect, so the sequences with a fixed first letter are one in 24 (or 8); a symmetric sequence of even length has a correlation at half its length that cannot vanish unless a sum of units over an orbit does; the refutation at length 4 computes two classes, which are the whole classes by the theorem about generate_equivalence_class |
| C99 | the functions of C08, C21, C26, C54, C58 and C93; SpecTests: Pascal's triangle | in the ring of integer sequences the differences of cross-correlations of the six pairs satisfy the relation p12 p34 - p13 p24 + p14 p23 = 0; with the three identities it is a sum of three squares p p* of antisymmetric elements, so each vanishes; the counts by an explicit enumeration; Proposition 5 from the theorems about the filter and about the reduction |
| C100 | the functions of C10 and C12; SpecOrbit: Euler's function and the table of sizes | orbit-stabilizer: the words of operations act on quadruples as on the symbolic quadruple followed by a substitution, and words are invertible, so all fibres of group -> class have the size of the stabilizer; sizes: every element of the group is a normal form (signed permutation of the four sequences with half shifts, an alternation, a shift and a dilation); the normal forms are closed under the operations, all of them are reached, different parameters give different quadruples, and the signed permutations are counted by computation (a finite list independent of the length) |
| C101 | iter_over_enumerate_filtered_couples, are_isomorphic, write_pair_single, equals, contains, the iterator of QuadSeq, set_values, QHM::new, QHM::col: functions no command calls | the filter keeps a couple by its two sequences only, so positions are carried along; isomorphism from C41; the two halves as the jobs of C82; equals by induction on both sequences; the rest by positions |
| C102 | to_string of Operator, MUM, HMUO, with the text of a number as a parameter; MUM::empty, HMUO::empty | every row starts with a bar, every number ends with a space, so the text can be cut back into rows and numbers; blank lines separate operators |
| C103 | nothing new: the search and `equiv` at length 32, where the last of the 128 symbols wraps to -128 and negating it changes nothing | the symbol -128 stays unique along every word (counting), so every substituted symmetry is the image of the quadruple or of the quadruple with its last entry negated; the latter are never complementary (C12). For one solution all transforms of its four sequences are computed (4 x 2048) and are not below a bound, while a substituted symmetry has a canonical form below it; hence the least one is not a solution |
| C104 | nothing new: the search and `equiv` from length 64 on | the symbol 256 is 0 as an i8, 0 has no entry, and the identity is in every symmetry group, so applying the group panics (64..100); above 100 the first round of the group panics (C46); with the exact description of the matches (`search_spec`) join panics on what pairs has written, and `PanicDriver` gives what driver.sh leaves |
| C105 | nothing new: the search and `equiv` at lengths 33 to 63 | the symbols 129..4n are negative as an i8 and none is 0: `fast_element_48` gives the entry every symbol reads (for -128 a position of its own); for odd lengths the operations on positions carry no signs, so the substituted group is the group acting on the folded quadruple and the proof of `reduce_spec` applies to it; for even lengths the symbol -128, which is its own negation, occurs once (`hits`, as in C103), so that every substituted symmetry is an image of the folded quadruple or of it with one sign changed; solutions: Williamson sequences (Turyn, doubling, a search) whose two folded versions are not complementary (`vm_compute`); for equiv the sum of the squared row sums is an invariant of the classes at odd length |
| C106 | ModelJobs (C96); SpecKilled: what a killed program has done | a cut program still satisfies the invariant of the interleaving (all bytes written are the right ones at their offsets), the repeated jobs settle every file again; the unrepeated job: its files exist and are empty or partly written in the order of the calls, empty sorted files match nothing, so join sees the other jobs only |
| C107 | nothing new: the operations of the types (SpecEquiv); SpecSums: row sums and alternating sums | every generator permutes the sequences, changes signs, permutes the positions of a sequence by an affine map (which keeps the sum, and of even length the alternating sum up to sign) or exchanges the two sums; the sign of a normalised quaternion-type row sum through the sign of the Vandermonde product of the squares times the product |
| C108 | ModelChecked: a debug build with its overflow checks: operations that negate, application of symmetries, representatives, join, driver.sh, HM::verify | no symbol up to 4*31 reaches -128 and the operations keep the set of symbols up to sign; from length 32 on the symbolic quadruple holds -128; partial sums of two rows: bounded by their number, and by half the size if the whole sum is 0 |
| C109 | ModelSlurm: the flag -s of driver.sh, pairs.sh and sortpairs.sh: word splitting of $SLURM_TMPDIR, sort with its option -T, a missing binary | words of a text; with one word the sort is the same; otherwise all sorted files are empty, so no pair matches and join panics on the empty list; sorting the kept pair files again gives the sorted directory |
| C110 | ModelFull: the calls of ModelJobs on a disk with a number of free bytes, where a write may be short; SpecFull: bytes written, the contents of a file | the offset of the handle is the length of the file, so the room is the free space; after a short write no byte is left and the next non-empty write fails; induction over the calls; every non-empty write of a job has two bytes or more |
| C111 | SpecMixed: jobs with their options, the pairs they write, one pairing; the commands are those of ModelMain | the files of a directory after any jobs are those of its jobs, and the sequence files decode to sequences with the row sums; join reads the tags of the two pair files and needs all four; for one option per row sum the proof of C82 with the options as functions of the row sum |
| C112 | SpecPrinted: pairs_lines, built from the number of sequences with a row sum and the files left on disk; the log is ModelLog | the fold over the row sums with the lines, the directory and the count of each; candidates lists each sequence once; write_seq_pairs counts the lines it writes |
| C113 | SpecPrinted: join_text, with the number of pairs of lines with the same key | the merge loop counts the product of the groups; for sorted separate keys every group is met; split_lines is inverted by stacking the lines |
| C114 | SpecResultLog: result_log, from the texts of C112 and C113, the files of every directory and the files left on disk; driver_log is ModelLog, where the directories are sorted in the order of the folder | composition of the commands; the text of a matrix has no line break, so the lines of result.mat are its matrices; C74 for the matrices with entries that do not commute |
| C115 | SpecThinned: thinned, has_line, both_lines, from the names of the files and the text of the lines | the invariant of the join of two sorted files (C30) for any subset of the lines written; a line determines the two sequences; C32 for the reduction |
| C116 | SpecCut: cut, has_whole_line, both_whole, text_lines (sort ends the last line of a file with a line break) | a join that does not panic is complete for keys that are not related to other keys; the beginning of a line has the key of the line if it can be read |

## 4. Not modelled

FFTW itself, NaN and infinities (rounding errors are covered by C89-C92 under the hypothesis `accurate`, which is not proved of FFTW and IEEE
arithmetic; which ties a real run loses depends on the direction of its roundings), file system failures, timing/progress printing, the
`graph-canon` crate (taken as an arbitrary correct canonical labelling in C41), `print_memory_usage`, the text of a single complex number, the disk usage column and the formatting of the table.  `ModelMain` leaves out messages
on the terminal and the file result.log; `ModelLog` adds them for the commands used by driver.sh, with elapsed times and the
numbers of warnings as unknowns.  In `ModelMain` what a panicking run has written before it panics counts as unchanged;
`ModelPanic` keeps it, and C95 shows that for driver.sh it makes no difference.  In `ModelJobs` a call of create_dir_all, File::create or File::write is one step; other programs on the same folder are not modelled.  `File::write` is assumed to write the whole buffer, except in `ModelFull`, where space is counted in bytes and directories and names take none; `cargo build` is assumed to succeed.

## 5. Trusted base

Coq 8.16.1 kernel; the axioms reported by `Print Assumptions` beside each theorem (section 6); the
hand translation from Rust to Gallina documented by the line references in the model.

Files: `Base` (panics, i8, loops), `Sums`, `Quat`: shared vocabulary.  `Model*` files: the model, with
line references.  `Spec*` files: independent specification.  `*Facts`, `Convert`, `Transpose`,
`GroupRing`, `QtWt`, `*Thms`: proofs.  `Prop*` files: the property theorems, each followed by
`Print Assumptions` and a concrete instance.

| code | model file | properties |
|------|------------|------------|
| `sequences/sequence.rs`, `symmetries.rs`, `williamson.rs` | `ModelSequence`, `ModelWilliamson` | C01-C08, C52, C70 |
| `sequences/equivalence.rs`, `find/find_unique.rs` (representatives) | `ModelEquivalence` | C09-C20, C46, C54-C56 |
| `find/find_unique.rs`, `find_naive.rs`, `find_optim.rs`, `find_williamson.rs` | `ModelFind` | C21, C22, C43-C45, C57 |
| `sequences/rowsum.rs` | `ModelRowsum` | C23-C26, C58, C69 |
| `sequences/matrices.rs` | `ModelMatrices` | C35-C40, C59 |
| `sequences/product.rs`, `sequences/mum.rs` | `ModelMum`, `ModelMumText` | C42, C48, C49, C60-C62, C102 |
| `sequences/fourier.rs`, `sequences/matching.rs` | `ModelFourier`, `ModelMatching` | C27, C28, C47, C67, C93 |
| `find/find_write.rs`, `find_write_quad_seq` of `main.rs`, `sortpairs.sh`, steps of `driver.sh` | `ModelWrite` | C28-C34, C50, C65-C68 |
| `sequences/matrix_equivalence.rs` | `ModelGraph` | C41, C63, C64 |
| `sequences/equations.rs` | `ModelEquations` | C51 |
| f32 arithmetic of `sequence.rs`, `matrices.rs` | `ModelFloat` | C53 |
| `main.rs`, `driver.sh`, `pair_file_cleanup.sh`, `convert_qhm.sh`, `convert_hm.sh` | `ModelMain` | C71-C79, C97 |
| the printed lines of `find_write.rs`, `main.rs`, `driver.sh`, `sortpairs.sh`, `convert_qhm.sh`; `countpairs.sh`, `collect_results.py` | `ModelLog` | C80, C81 |
| `pairs.sh`, `sortpairs.sh`, `join_pairs.sh`, `convert_hm.sh`, `convert_qhm.sh` as separate steps | `ModelScripts` | C82-C85 |
| `debug_assert!` in `equivalence.rs`, `find_unique.rs`, `find_write.rs`, `matrix_equivalence.rs`, `main.rs` | `ModelDebug` | C86, C87 |
| i8 arithmetic with overflow checks: `negated`, `alt_negated`, `generate_equivalence_class_fast`, `HM::verify` and their callers | `ModelChecked` | C108 |
| `-s` of `driver.sh`, `pairs.sh`, `sortpairs.sh` (standard input at its end, no wildcards in the variable, a usable directory) | `ModelSlurm` | C109 |
| short writes on a full disk: `find_write.rs` (the calls of `ModelJobs`, one program at a time) | `ModelFull` | C110 |
| `find_with_rowsum.rs` (get_two_best, generate_comment, find; sort is that of find_write.rs) | `ModelSolver` | C88 |
| f64 arithmetic of `fourier.rs`, `matching.rs`, `find_write.rs` with rounding errors; the warnings of `write_seq_pairs` | `ModelNoise` | C89-C92 |
| the files of commands that panic: `find_write.rs`, `main.rs`, `matrix_equivalence.rs`, `driver.sh` | `ModelPanic` | C94, C95 |
| calls of `pairs_rowsum` and `pair_single` to the file system: `find_write.rs`, `main.rs` | `ModelJobs` | C96, C106 |
| functions of `main.rs` that the command line does not call: `find_pqs`, `find_pqs_of_type`, `find_williamson`, `find_williamson_type`, `find_unique_williamson_type_of_size` | `ModelExplore` | C98 |
| `set_values` of `sequence.rs`, the iterator of `williamson.rs`, `equals` and `contains` of `find_unique.rs` | `ModelApi` | C101 |

Validation: `Published` runs the model on the output files published in /repo/wts-results and compares texts, numbers and
logs.  These are tests of the translation, not proofs.

## 6. Axioms

All theorems of `PropSequences`, `PropEquivalence`, `PropCanonical`, `PropFind`, `PropRowsum`, `PropMatrix`,
`PropMum`, `PropGraph`, `PropEquations`, `PropFloat`: closed under the global context.  `PropMain`: C71_*, C72_matrix_count, C73_*, C74_*,
C75_*, C76_*, C77_representative_never_williamson, C77_convert_hm_panics are closed; the theorems about the whole tree (the other C72, C77, C78 theorems), whose
statements mention the spectra through the command `pairs`, depend on the axioms of the real numbers below.  `PropDriver` and `PropSplit`: all theorems mention the command `pairs` and
depend on the axioms of the real numbers below.  `PropTests`, `PropOrbit`, `PropMumText` and `PropSums`: closed.  `PropCut`: `C116_truncated` is closed, the other two theorems depend on these axioms.  `PropThinned`: all four theorems depend on these axioms.  `PropResultLog`: both theorems depend on these axioms.  `PropPrinted`: both theorems depend on these axioms.  `PropMixed`: all three theorems depend on these axioms.  `PropFull`: all four theorems depend on these axioms.  `PropSlurm`: C109_values and C109_sortpairs_same are closed, the others depend on these axioms.  `PropChecked`: C108_driver_same, C108_join_panics and C108_driver_panics depend on these axioms, the others are closed.  `PropKilled`: C106_unrepeated_lost is closed, the others depend on these axioms.  `PropLength32`: C103_driver_refuted depends on these axioms, the others are closed.  `PropLength48`: C105_driver_refuted depends on these axioms, the others are closed.  `PropLength64`: C104_join_refuted and C104_driver_refuted depend on these axioms, the others are closed.  `PropApi`: C101_couples_with_positions and C101_both_halves depend on these axioms, the others are closed.  `PropExplore`: C98_* are closed, C97_strict depends on these axioms.  `PropSolver`: C88_two_best is closed, the others depend on these axioms through the filter.  `PropNoise`: all theorems are about real numbers and depend on these axioms.  `PropPanic`, `PropJobs` and `PropAgree` (except C97_classes_nested, which is closed): all theorems mention the command line program and depend on these axioms.  `PropDebug`: C86_* and C87_qhm_all_panics are closed; the other C87 theorems mention the command line program and depend on these axioms.

`PropMatching` and `PropSearch`: C29_*, C30_*, C31_*, C32_*, C34_*, C47_match_data, C66_no_match_panics and C93_* are
closed under the global context.  The theorems whose statements mention the spectra (C27_*, C28_*, C33_*,
C65_*, C67_*, C68_*, the other C47 theorems, C66_no_solution_panics, C50_* in `PropFiles`) depend on the axioms of the standard library's real numbers:
`ClassicalDedekindReals.sig_forall_dec`, `ClassicalDedekindReals.sig_not_dec`,
`FunctionalExtensionality.functional_extensionality_dep`.

## Reading seeded/LOG.jsonl

- `theorems_failed` first names the lemmas whose proof stopped with an error in the edited copy, then the property theorems that depend on them.
- A theorem named there through a dependency could no longer be built. That its statement became false was not shown for each one.
- A file that ran out of time is no evidence. Three entries (q003, u003, u004) had been recorded that way; their notes say what was checked afterwards.

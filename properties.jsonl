{"id": "C01", "title": "is_perfect decides perfection", "statement": "QS::is_perfect() returns true exactly when the periodic autocorrelation sum_i v[i]*conj(v[(i+t)%n]) is zero for every shift t in 1..n-1, although the code only looks at the first half of the shifts.", "quantifier": "all quaternion sequences of every length (exact arithmetic)", "why_tests_cant": "the skipped half of the shifts must vanish for every sequence of every length", "anchors": ["rust/src/sequences/sequence.rs: QS::is_perfect, QS::periodic_autocorrelation"]}
{"id": "C02", "title": "is_odd_perfect decides odd perfection", "statement": "QS::is_odd_perfect() returns true exactly when the odd (nega-cyclic) periodic autocorrelation is zero for every shift t in 1..n-1.", "quantifier": "all quaternion sequences of every length >= 1", "why_tests_cant": "same half-check argument, for every length and sequence", "anchors": ["rust/src/sequences/sequence.rs: QS::is_odd_perfect, QS::odd_periodic_autocorrelation"]}
{"id": "C03", "title": "Quadruple <-> quaternion sequence conversion is lossless", "statement": "QuadSeq::from_pqs(QuadSeq::to_qs(s)) = s for every +-1 quadruple, and to_qs(from_pqs(q)) = q for every quaternion sequence over the 16-letter alphabet; from_pqs panics on any sequence that contains one of the 8 remaining letters accepted by QS::from_str.", "quantifier": "all +-1 quadruples and all quaternion sequences over the 24-letter alphabet, every length", "why_tests_cant": "the result files are written in one encoding and read back in the other, for every sequence found", "anchors": ["rust/src/sequences/williamson.rs: to_qs, from_pqs, quaternion_to_quad, QUADRUPLETS", "rust/src/sequences/sequence.rs: QPLUS, Q24"]}
{"id": "C04", "title": "Result text format round-trips", "statement": "QS::from_str(q.to_string_raw()) has the values and length of q for every sequence over the 24-element alphabet; from_str panics exactly on strings with a foreign character and to_string_raw(from_str(x)) = x otherwise.", "quantifier": "all strings and all sequences over the alphabet", "why_tests_cant": "all strings of all lengths", "anchors": ["rust/src/sequences/sequence.rs: QS::from_str, QS::to_string_raw, quaternion_to_string"]}
{"id": "C05", "title": "QT quadruples are exactly the perfect quaternion sequences", "statement": "s.verify(QuaternionType) is true exactly when s.to_qs().is_perfect() is true.", "quantifier": "all +-1 quadruples of equal length n >= 1", "why_tests_cant": "an equivalence between two different algorithms over all 2^(4n) inputs for all n", "anchors": ["rust/src/sequences/williamson.rs: verify_qts, to_qs", "rust/src/sequences/sequence.rs: is_perfect"]}
{"id": "C06", "title": "Quaternion-type and Williamson-type quadruples coincide", "statement": "s.verify(QuaternionType) is true exactly when s.verify(WilliamsonType) is true; hence the searches for both types look for the same objects and the 'amicable' check can never fail.", "quantifier": "all +-1 quadruples of equal length n >= 1", "why_tests_cant": "a deep algebraic fact about all lengths; the repository can only spot check it on result files", "anchors": ["rust/src/sequences/williamson.rs: verify_qts, verify_wts, is_amicable", "rust/src/main.rs: verify_qts_eq_wts"]}
{"id": "C07", "title": "Williamson implies Williamson-type implies quaternion-type", "statement": "verify(Williamson) implies verify(WilliamsonType), which implies verify(QuaternionType); verify of any other type is false.", "quantifier": "all quadruples of equal length n >= 1", "why_tests_cant": "must hold for every quadruple", "anchors": ["rust/src/sequences/williamson.rs: verify, verify_ws, verify_wts, verify_qts"]}
{"id": "C08", "title": "verify decides the mathematical definitions", "statement": "verify(t) returns true exactly when, for all shifts, the four periodic autocorrelations cancel and (t=QT) the three cross-correlation identities hold / (t=WT) all six pairs are amicable / (t=W) all four sequences are symmetric; it never panics on well-formed quadruples.", "quantifier": "all +-1 quadruples of equal length n >= 1, all types", "why_tests_cant": "loop bounds (offset 0, last offset, half range) must be right for every length", "anchors": ["rust/src/sequences/williamson.rs: verify, is_periodic_complementary, verify_cross_correlation, is_amicable, is_symmetric"]}
{"id": "C09", "title": "Equivalence operations preserve the sequence type", "statement": "Every quadruple produced by any operation listed in SequenceType::equivalences() from a quadruple that verifies for the type verifies for that type (and is again a +-1 quadruple of the same length); no operation panics for lengths 1..100.", "quantifier": "all types, all listed operations, all valid quadruples of every length in 1..100", "why_tests_cant": "debug_asserts in some operations test the wrong variable; only a proof covers every input", "anchors": ["rust/src/sequences/equivalence.rs: equivalent_*", "rust/src/sequences/symmetries.rs: SequenceType::equivalences"]}
{"id": "C10", "title": "generate_equivalence_class returns exactly the orbit", "statement": "generate_equivalence_class terminates and returns exactly the set of quadruples reachable by finitely many applications of the given operations, whatever order the hash sets are iterated in.", "quantifier": "all quadruples of every length 1..100, every list of operations of the module, every hash iteration order", "why_tests_cant": "termination and completeness of a fixpoint loop under arbitrary iteration order", "anchors": ["rust/src/sequences/equivalence.rs: generate_equivalence_class"]}
{"id": "C11", "title": "Equivalence is an equivalence relation", "statement": "y is in the class generated from x exactly when x is in the class generated from y; classes of two quadruples are equal or disjoint (so equivalent_to is reflexive, symmetric and transitive).", "quantifier": "all types, all quadruples of every length 1..100", "why_tests_cant": "quantifies over all pairs and all operation words", "anchors": ["rust/src/sequences/equivalence.rs: generate_equivalence_class", "rust/src/sequences/williamson.rs: equivalent_to"]}
{"id": "C12", "title": "Fast and direct class generation agree up to length 31", "statement": "generate_equivalence_class_fast(s, generate_symmetry_group(n,...)) is the same set as generate_equivalence_class(s,...) for every length 1..31; for length 32 (where 4n does not fit an i8) the release build returns a set that contains a quadruple that is not equivalent to s.", "quantifier": "all quadruples of length 1..31, all operation lists; counterexample at 32", "why_tests_cant": "agreement over all inputs; the failure needs an overflow that no test reaches", "anchors": ["rust/src/sequences/equivalence.rs: generate_symmetry_group, generate_equivalence_class_fast"]}
{"id": "C13", "title": "will_less_than is a strict total order", "statement": "will_less_than is irreflexive, transitive and total on quadruples of equal length, and never panics there.", "quantifier": "all quadruples of equal length", "why_tests_cant": "canonical forms are minima; every triple of quadruples matters", "anchors": ["rust/src/sequences/equivalence.rs: will_less_than, seq_less_than"]}
{"id": "C14", "title": "generate_canonical_representative is the class minimum", "statement": "generate_canonical_representative(s) is the least element of the class of s, does not depend on hash iteration order, and two quadruples have the same representative exactly when they are equivalent.", "quantifier": "all quadruples of length 1..100, all types, all iteration orders", "why_tests_cant": "universally quantified over classes and iteration orders", "anchors": ["rust/src/sequences/equivalence.rs: generate_canonical_representative", "rust/src/find/find_unique.rs: find_minimum"]}
{"id": "C15", "title": "ns_canonical is a complete invariant of negate-swap", "statement": "ns_canonical terminates, is reachable from its argument by negate-swap operations, is the least element of the negate-swap orbit, and ns_canonical(x)=ns_canonical(y) exactly when x and y are in the same negate-swap orbit.", "quantifier": "all +-1 quadruples of every length n >= 1", "why_tests_cant": "a hand-written case analysis with duplicate handling, to be right for all inputs", "anchors": ["rust/src/sequences/equivalence.rs: ns_canonical, swap, negated", "rust/src/sequences/williamson.rs: has_duplicate_seq"]}
{"id": "C16", "title": "sn_ss_canonical is a complete invariant of negate/reorder", "statement": "sn_ss_canonical(x) is the least element of the orbit of x under single negations and swaps, and equal values mean same orbit.", "quantifier": "all +-1 quadruples of every length n >= 1", "why_tests_cant": "as above", "anchors": ["rust/src/sequences/equivalence.rs: sn_ss_canonical"]}
{"id": "C17", "title": "qt_canonical equals the brute-force representative", "statement": "For lengths 1..31 qt_canonical with the symmetry group used by reduce_to_canonical_reps returns, for QT and WT, exactly generate_canonical_representative of the same type.", "quantifier": "all +-1 quadruples of length 1..31, types QT and WT, all iteration orders", "why_tests_cant": "equality of two algorithms for every input", "anchors": ["rust/src/sequences/equivalence.rs: qt_canonical", "rust/src/find/find_unique.rs: reduce_to_canonical_reps"]}
{"id": "C18", "title": "reduce_to_canonical_reps keeps exactly one representative per class", "statement": "For a non-empty list of valid quadruples of length n in 1..31, the output has no duplicates, each output is equivalent to some input, each input is equivalent to exactly one output (QT, WT), and each output verifies for the type. An empty list panics.", "quantifier": "all lists of valid quadruples", "why_tests_cant": "lists of any size and content", "anchors": ["rust/src/find/find_unique.rs: reduce_to_canonical_reps"]}
{"id": "C19", "title": "Williamson representatives may leave the Williamson type", "statement": "reduce_to_canonical_reps on Williamson input still yields one representative per Williamson class, but the representative need not be symmetric: verify(Williamson) of the output can be false, which makes the later matrix conversion assert fail.", "quantifier": "all lists of Williamson quadruples of length 1..31; concrete counterexample of length 3", "why_tests_cant": "class counting is for all inputs; the defect is in a path no test exercises", "anchors": ["rust/src/find/find_unique.rs: reduce_to_canonical_reps", "rust/src/sequences/matrix_equivalence.rs: hadamard_equivalence_from_file"]}
{"id": "C20", "title": "The pairwise equivalence test decides equivalence", "statement": "equiv(s1,s2,t) is true exactly when s2 is in the class generated from s1, for all valid quadruples of the type (QT, WT and W), and panics when one of them is not valid.", "quantifier": "all pairs of valid quadruples of the same length 1..31, all three types", "why_tests_cant": "pairs over all lengths", "anchors": ["rust/src/sequences/equivalence.rs: equiv"]}
{"id": "C21", "title": "reduce_to_equivalence and reduce_to_equivalence_par agree", "statement": "Both return exactly the set of class minima of the input classes, independent of hash iteration order.", "quantifier": "all non-empty lists of quadruples of length 1..31, all iteration orders", "why_tests_cant": "lists of any size", "anchors": ["rust/src/find/find_unique.rs: reduce_to_equivalence, reduce_to_equivalence_par"]}
{"id": "C22", "title": "reduce_to_equivalence_set_dif loses classes", "statement": "reduce_to_equivalence_set_dif should return one element per class; in fact it returns exactly the inputs that have no other equivalent input, so every class with two members in the input disappears.", "quantifier": "all non-empty lists (characterisation); concrete counterexample", "why_tests_cant": "characterisation is over all lists", "anchors": ["rust/src/find/find_unique.rs: reduce_to_equivalence_set_dif"]}
{"id": "C23", "title": "Row sums of a complementary quadruple", "statement": "The squares of the four row sums of any quadruple passing verify (any type) add up to 4n and every row sum has the parity of n.", "quantifier": "all valid quadruples of every length", "why_tests_cant": "a theorem about all lengths", "anchors": ["rust/src/sequences/rowsum.rs: rowsum, generate_rowsums", "rust/src/sequences/williamson.rs: verify"]}
{"id": "C24", "title": "sum_of_four_squares is exact", "statement": "sum_of_four_squares(p) terminates and lists every 0<=a<=b<=c<=d with a^2+b^2+c^2+d^2=p exactly once and nothing else.", "quantifier": "all p", "why_tests_cant": "all p; termination of an unusual odometer loop", "anchors": ["rust/src/sequences/rowsum.rs: sum_of_four_squares, increment_squares"]}
{"id": "C25", "title": "generate_rowsums covers every sequence", "statement": "For every quadruple valid for the type there is an equivalent quadruple (by the type's own operations) whose row sums are one of generate_rowsums(n,type); every listed quadruple has the right sum of squares and parity.", "quantifier": "all valid quadruples of every length, all three types", "why_tests_cant": "search completeness over all lengths", "anchors": ["rust/src/sequences/rowsum.rs: generate_rowsums, has_sorted_rowsums"]}
{"id": "C26", "title": "generate_sequences_with_rowsum enumerates exactly", "statement": "generate_sequences_with_rowsum(r,n) lists every +-1 sequence of length n and sum r exactly once and nothing else (empty when r has the wrong parity or |r|>n, including the wrap of a negative count).", "quantifier": "all r and n", "why_tests_cant": "2^n sequences for all n", "anchors": ["rust/src/sequences/rowsum.rs: generate_sequences_with_rowsum, gen_seq_rec"]}
{"id": "C27", "title": "Power spectral density filter never discards a solution", "statement": "For every valid quadruple, every frequency and every pairing, the exact sum of the two power spectral densities of a pair is at most 4n, so the pair passes the filter of iter_over_enumerate_filtered_couples_psds (exact real arithmetic).", "quantifier": "all valid quadruples, all frequencies, all pairs", "why_tests_cant": "all lengths; real analysis", "anchors": ["rust/src/sequences/fourier.rs: iter_over_enumerate_filtered_couples_psds, dft_sequence", "rust/src/find/find_write.rs: write_seq_pairs"]}
{"id": "C28", "title": "Matching keys of the two halves agree", "statement": "For every valid quadruple and each of the three pairings, the key computed for the left pair equals the key computed for the right pair, for correlation matching and (exact arithmetic) for spectral matching.", "quantifier": "all valid quadruples, all pairings, all types, both match options", "why_tests_cant": "search completeness over all inputs", "anchors": ["rust/src/find/find_write.rs: write_seq_pairs", "rust/src/sequences/matching.rs: compute_*"]}
{"id": "C29", "title": "Pair file lines round-trip", "statement": "The line written for indices (i,j) and a key is parsed by the join step back to the same key and indices, and a sequence file line is parsed back to the same sequence.", "quantifier": "all keys, indices and +-1 sequences", "why_tests_cant": "all strings", "anchors": ["rust/src/find/find_write.rs: get_line_from, string_to_sequence, write_seq_pairs", "rust/src/sequences/rowsum.rs: sequence_to_string"]}
{"id": "C30", "title": "The merge join finds all matches when no key is a proper prefix of another", "statement": "On files sorted bytewise, join_pairs_files returns exactly the valid combinations with equal keys whenever no key occurring in the two files is a proper prefix of another.", "quantifier": "all pairs of sorted files", "why_tests_cant": "a merge over arbitrary-length inputs", "anchors": ["rust/src/find/find_write.rs: join_pairs_files", "sortpairs.sh"]}
{"id": "C31", "title": "The merge join can miss matches", "statement": "Because sort orders whole lines while the join compares keys, two bytewise sorted files whose keys are in proper prefix relation can make the join skip a valid match.", "quantifier": "concrete counterexample", "why_tests_cant": "needs an adversarial pair of keys", "anchors": ["rust/src/find/find_write.rs: join_pairs_files", "sortpairs.sh"]}
{"id": "C32", "title": "Search is sound", "statement": "Every quadruple returned by the join step verifies for the requested type.", "quantifier": "all file contents", "why_tests_cant": "all files", "anchors": ["rust/src/find/find_write.rs: join_pairs_files, get_sequences"]}
{"id": "C33", "title": "The search is exhaustive", "statement": "Generating, sorting and joining yields, for every length, for WT, W and QT and for both match options (spectra in exact real arithmetic), a list such that every valid quadruple is equivalent to one of the list.", "quantifier": "all lengths n >= 1, all valid quadruples, all pairings, both match options", "why_tests_cant": "the end-to-end completeness claim of the tool", "anchors": ["rust/src/find/find_write.rs", "rust/src/main.rs: find_write_quad_seq"]}
{"id": "C34", "title": "Conversion of WT results to QT results is exhaustive", "statement": "Extending every WT representative by negating/half-shifting W and reducing by QT equivalence yields every QT class exactly once.", "quantifier": "all lists covering the WT classes, lengths 1..31", "why_tests_cant": "coset argument over all classes", "anchors": ["rust/src/main.rs: find_write_quad_seq"]}
{"id": "C35", "title": "HM::from_williamson builds a Hadamard matrix", "statement": "For every quadruple passing verify, HM::from_williamson(q,QuaternionType) is a 4n x 4n +-1 matrix with pairwise orthogonal rows, HM::verify() returns true on it in a release build, and get_qts returns the quadruple.", "quantifier": "all valid quadruples of every length", "why_tests_cant": "all lengths", "anchors": ["rust/src/sequences/matrices.rs: HM::from_williamson, HM::verify, HM::get_qts"]}
{"id": "C36", "title": "HM::verify is exact below size 256 only", "statement": "On +-1 matrices HM::verify (release) decides row orthogonality for sizes up to 255; at 256 it accepts the all-ones matrix because the inner product is accumulated in an i8.", "quantifier": "all +-1 matrices of size <= 255; counterexample at 256", "why_tests_cant": "size 256 matrices and all inputs below", "anchors": ["rust/src/sequences/matrices.rs: HM::verify"]}
{"id": "C37", "title": "QHM of a perfect sequence is a quaternionic Hadamard matrix", "statement": "QHM::from_pqs(q).verify() is true exactly when q.is_perfect() is true, and then H H* = n I.", "quantifier": "all sequences over unit quaternions of every length", "why_tests_cant": "all lengths", "anchors": ["rust/src/sequences/matrices.rs: QHM::from_pqs, QHM::verify"]}
{"id": "C38", "title": "QHM dephasing", "statement": "QHM::dephase and QHM::dephased give the same matrix; its first row and column are 1, it is Hadamard exactly when the original is, and its entries stay in the printable 24-element group.", "quantifier": "all square matrices with entries among the 24 units", "why_tests_cant": "all sizes", "anchors": ["rust/src/sequences/matrices.rs: QHM::dephase, QHM::dephased, QHM::to_string"]}
{"id": "C39", "title": "HM::dephase normalises, HM::dephased does not", "statement": "HM::dephase makes the first row and column 1 and preserves orthogonality; HM::dephased should do the same but its second pass reads the unnormalised matrix, so the first row need not be 1.", "quantifier": "all +-1 matrices; counterexample of size 2", "why_tests_cant": "all sizes", "anchors": ["rust/src/sequences/matrices.rs: HM::dephase, HM::dephased"]}
{"id": "C40", "title": "contains_non_commuting_elements is exact", "statement": "On a dephased matrix contains_non_commuting_elements returns true exactly when two entries of the matrix do not commute.", "quantifier": "all matrices with first row and column 1", "why_tests_cant": "all sizes", "anchors": ["rust/src/sequences/matrices.rs: QHM::contains_non_commuting_elements"]}
{"id": "C41", "title": "Graph reduction captures Hadamard equivalence", "statement": "The graphs built by graph_from_hm for two Hadamard matrices are isomorphic exactly when the matrices are Hadamard equivalent (row/column permutations and negations), so reducing by a correct canonical labelling keeps one matrix per class.", "quantifier": "all pairs of Hadamard matrices of equal size", "why_tests_cant": "all sizes and all graph isomorphisms", "anchors": ["rust/src/sequences/matrix_equivalence.rs: graph_from_hm, reduce_to_hadamard_equivalence"]}
{"id": "C42", "title": "Products of perfect sequences are perfect", "statement": "sequence_product of two perfect sequences of unit quaternions with coprime lengths is perfect, of length pq.", "quantifier": "all perfect sequences of coprime lengths", "why_tests_cant": "all lengths (Chinese remainder argument)", "anchors": ["rust/src/sequences/product.rs: sequence_product"]}
{"id": "C43", "title": "Naive and parallel exhaustive searches agree", "statement": "find_naive::find and find_optim::find return the same count, equal to the number of perfect sequences over the 16-letter alphabet with first letter 1, for every parallel schedule.", "quantifier": "all lengths, all schedules of the parallel reduction", "why_tests_cant": "schedules and lengths", "anchors": ["rust/src/find/find_naive.rs: find", "rust/src/find/find_optim.rs: find"]}
{"id": "C44", "title": "Symmetric searches explore symmetric sequences", "statement": "A symmetric search lists exactly the perfect sequences over the 16-letter alphabet that start with 1, keep the letter 1 in the entry mirrored from index 0, and satisfy the symmetry at every index from 1 on. With symmetry I (all lengths) and II, III (even lengths) these are exactly the perfect sequences with the symmetry at every index. With symmetry IV and even length the middle entry of every listed sequence violates the symmetry.", "quantifier": "all lengths and symmetries; counterexample for IV", "why_tests_cant": "all leaves of the search tree", "anchors": ["rust/src/sequences/sequence.rs: set_value, search_size", "rust/src/find/find_naive.rs"]}
{"id": "C45", "title": "find_unique returns one representative per class", "statement": "find_unique::find enumerates every QT quadruple exactly once and prints exactly one line per equivalence class, the least element.", "quantifier": "all lengths", "why_tests_cant": "all lengths", "anchors": ["rust/src/find/find_unique.rs: find, find_aux"]}
{"id": "C46", "title": "Coprime table", "statement": "coprime(a,b) is true exactly when gcd(a,b)=1, and COPRIMES[n] lists exactly the residues 1..n coprime to n for n in 1..100; sizes above 100 panic.", "quantifier": "all a,b; all n", "why_tests_cant": "all pairs of integers", "anchors": ["rust/src/sequences/equivalence.rs: coprime, COPRIMES"]}
{"id": "C47", "title": "generate_matching_table stores every pair but the first", "statement": "The table should map each key to all pairs with that key; the first pair of each key is dropped.", "quantifier": "all sequence lists; characterisation", "why_tests_cant": "all inputs", "anchors": ["rust/src/sequences/matching.rs: generate_matching_table"]}
{"id": "C48", "title": "Quaternion to operator map is a *-homomorphism", "statement": "quaternion_to_operator respects sums, products and conjugation, so quaternion Hadamard matrices give Hadamard matrices of unitary operators.", "quantifier": "all quaternions", "why_tests_cant": "all reals", "anchors": ["rust/src/sequences/mum.rs: quaternion_to_operator, Operator::conjugate_transpose"]}
{"id": "C49", "title": "HMUO::tensor reports a wrong size", "statement": "HMUO::tensor should have matrix_size equal to the operator size (the product); it reports the sum.", "quantifier": "characterisation: correct exactly when the sum equals the product", "why_tests_cant": "all sizes", "anchors": ["rust/src/sequences/mum.rs: HMUO::tensor"]}
{"id": "C50", "title": "Prepared directories match written files", "statement": "Running pair_single for the first and the second pair, in either order, leaves exactly the files that pairs_rowsum writes. When create is run first, the directory additionally keeps an empty file for every prepared name (tags in decreasing order of row sums) that is not written; for the row sums of the search the join step then panics on the directory, except when all four row sums are equal, or with the pairing WX when the first two and the last two are equal. Without a valid pairing argument, create panics, pair_single writes nothing and pairs_rowsum uses WZ.", "quantifier": "all lengths, types, key modes, pairings, feasible row sums and folders; all listing orders for the join", "why_tests_cant": "workflow-level state over all row sums", "anchors": ["rust/src/find/find_write.rs: create_rowsum_dirs, write_pair_single_rowsum, get_order_from_dir"]}
{"id": "C51", "title": "Equation generator", "statement": "The linear row-sum and cross-correlation equations have exactly the intended 0/1 solutions; the quadratic equations mention the non-existent variable x0, the nonlinear cross-correlation right-hand side is always 0, and a quaternion-type quadruple can fail to satisfy the system for either value of x0.", "quantifier": "all sequences and lengths; counterexamples", "why_tests_cant": "all assignments of all lengths", "anchors": ["rust/src/sequences/equations.rs"]}
{"id": "C52", "title": "transpose is index negation", "statement": "transpose maps entry x to position -x mod n, and is an involution.", "quantifier": "all sequences of every length >= 1", "why_tests_cant": "all lengths", "anchors": ["rust/src/sequences/sequence.rs: transpose"]}
{"id": "C53", "title": "Single-precision quaternion arithmetic is exact", "statement": "For sequences over the 24-element alphabet of length below 2^22, the f32 evaluation of periodic_autocorrelation and odd_periodic_autocorrelation gives exactly the mathematical value at every shift (finite, not rounded), so is_perfect and is_odd_perfect decide as exact arithmetic does; for matrices of size below 2^21, the tolerance test of QHM::verify accepts exactly what the exact test accepts. The table of 24 quaternions itself is exact. A bound is needed: on 2^24 or more ones the f32 sum stays at 2^24.", "quantifier": "all sequences of length < 2^22 over the alphabet, all shifts; all square matrices of size < 2^21 over the alphabet", "why_tests_cant": "rounding over all inputs", "anchors": ["rust/src/sequences/sequence.rs: periodic_autocorrelation, odd_periodic_autocorrelation, is_perfect, is_odd_perfect, Q24", "rust/src/sequences/matrices.rs: QHM::verify"]}
{"id": "C54", "title": "Each equivalence operation returns exactly its documented variants", "statement": "Each of the fourteen equivalent_* operations returns the quadruple itself together with exactly the documented variants (swaps, shifts by half, shifts, reversal, negations, alternated negations, decimations by units), without duplicates and without panicking (except the automorphism operation above length 100).", "quantifier": "all quadruples of i8 sequences of every length, all fourteen operations", "why_tests_cant": "every length has a different set of variants", "anchors": ["rust/src/sequences/equivalence.rs: equivalent_*"]}
{"id": "C55", "title": "All fourteen operations keep QT and WT, except alternated negation at odd length", "statement": "For QT and WT, every quadruple produced by any of the fourteen operations from a valid quadruple is valid, except that equivalent_alternated_negation breaks validity at odd lengths.", "quantifier": "all valid quadruples of every length; counterexample at length 3", "why_tests_cant": "all lengths and operations", "anchors": ["rust/src/sequences/equivalence.rs: equivalent_*"]}
{"id": "C56", "title": "generate_equivalent_quad_seqs is the union of the classes", "statement": "generate_equivalent_quad_seqs(list,type) returns, without duplicates, exactly the quadruples equivalent to some member of the list.", "quantifier": "all lists of quadruples of one length up to 100, all iteration orders", "why_tests_cant": "all lists", "anchors": ["rust/src/sequences/equivalence.rs: generate_equivalent_quad_seqs"]}
{"id": "C57", "title": "Brute-force Williamson searches are exact", "statement": "The searches behind find_williamson_of_size and find_williamson_type_of_size print each Williamson (Williamson-type) quadruple of the given length whose four sequences all start with -1 exactly once, and return their number.", "quantifier": "all lengths >= 1", "why_tests_cant": "exactness over an exponential search space for every length", "anchors": ["rust/src/sequences/find_williamson.rs: find, find_recursive", "rust/src/main.rs: find_williamson_of_size, find_williamson_type_of_size"]}
{"id": "C58", "title": "Which quadruples the row-sum filter keeps", "statement": "For valid QT quadruples, has_sorted_rowsums accepts exactly those whose row sums are listed by generate_rowsums and, in addition, those of the form (a,b,c,-c) with 0<a<b<c, which generate_rowsums does not list (the two conventions differ; witness at length 15). filter_by_rowsums applied to the union of the classes of a list keeps at least one member of each class and nothing outside the classes.", "quantifier": "all valid quadruples of every length; all lists of valid quadruples of length up to 100, all three types", "why_tests_cant": "all lengths; the disagreement first appears at length 15", "anchors": ["rust/src/sequences/rowsum.rs: has_sorted_rowsums, generate_rowsums", "rust/src/sequences/equivalence.rs: filter_by_rowsums"]}
{"id": "C59", "title": "Printed matrices determine the matrix", "statement": "HM::to_string prints one line '| e e ... |' per row with + for 1 and - for -1, HM::to_string_magma prints the Magma matrix literal of the same entries, QHM::to_string prints one letter per entry; two matrices of the same size with the same text are equal. to_string_magma panics on a matrix of size 0.", "quantifier": "all +-1 matrices (resp. matrices over the 24 units) of every size", "why_tests_cant": "all sizes and pairs of matrices", "anchors": ["rust/src/sequences/matrices.rs: HM::to_string, HM::to_string_magma, QHM::to_string"]}
{"id": "C60", "title": "Left and right perfection coincide", "statement": "A sequence over the 24 units is perfect exactly when the sequence of conjugates is perfect, i.e. whether the periodic autocorrelations are taken with the conjugate on the left or on the right makes no difference; is_perfect gives the same answer on both.", "quantifier": "all sequences over the 24 unit quaternions of every length", "why_tests_cant": "non-commutative: holds entry by entry for no term, only for the whole sequence", "anchors": ["rust/src/sequences/sequence.rs: QS::is_perfect, periodic_autocorrelation"]}
{"id": "C61", "title": "MUM::from_qhm gives projective measurements", "statement": "For every square matrix over the 24 units, MUM::from_qhm yields n self-adjoint 2n x 2n operators with Q_b Q_b = n Q_b. For the circulant matrix of a perfect sequence they are pairwise orthogonal and sum to n times the identity. For the dephased matrix of a perfect sequence this fails.", "quantifier": "all matrices, resp. perfect sequences, of every size; counterexample at length 5", "why_tests_cant": "all sizes; needs the left version of orthogonality", "anchors": ["rust/src/sequences/mum.rs: MUM::from_qhm", "rust/src/sequences/matrices.rs: QHM::from_pqs, QHM::dephased"]}
{"id": "C62", "title": "mum_product of measurements is a measurement", "statement": "mum_product of two projective measurements with coprime numbers of outcomes is a projective measurement with pq outcomes in dimension d1*d2.", "quantifier": "all measurements with coprime numbers of outcomes", "why_tests_cant": "all sizes", "anchors": ["rust/src/sequences/product.rs: mum_product"]}
{"id": "C63", "title": "result.mat has one matrix per Hadamard class", "statement": "For an input file holding the printed sequences of valid quadruples, hadamard_equivalence_from_file prints the number of Hadamard equivalence classes of the associated matrices and writes to result.mat, one per line, the Magma literal of exactly one Hadamard matrix from each class.", "quantifier": "all files of valid quadruples of one length >= 1, all hash map orders, every exact canonical labelling", "why_tests_cant": "all files and classes", "anchors": ["rust/src/sequences/matrix_equivalence.rs: hadamard_equivalence_from_file, canon_hm"]}
{"id": "C64", "title": "reduce_to_ns_equivalence keeps one quadruple per class", "statement": "reduce_to_ns_equivalence returns, without duplicates, the least member of the negate-and-swap class of each input and nothing else; no two results are equivalent.", "quantifier": "all lists of +-1 quadruples of one length >= 1, all hash set orders", "why_tests_cant": "all lists", "anchors": ["rust/src/sequences/matrix_equivalence.rs: reduce_to_ns_equivalence"]}
{"id": "C65", "title": "End-to-end search writes one line per equivalence class", "statement": "Writing pairs in an empty folder, sorting them and joining them (the steps of driver.sh) leaves in result.seq exactly one line per equivalence class of the requested type, each line being the text of the least member of its class; for Williamson-type, result-qts.seq holds exactly one line per quaternion-type class. For Williamson sequences the lines are Williamson-type representatives, one per Williamson class.", "quantifier": "all lengths 1..31 for which a solution exists, all three types, all pairings, all directory listing and hash orders, both match options", "why_tests_cant": "the end-to-end claim of the tool, over all lengths and iteration orders", "anchors": ["driver.sh", "sortpairs.sh", "rust/src/find/find_write.rs: write_pairs, join_pairs", "rust/src/main.rs: find_write_quad_seq"]}
{"id": "C66", "title": "A search without matches panics", "statement": "If no pair of lines yields a valid quadruple, the join step panics (it takes the first element of an empty list) instead of writing an empty result file.", "quantifier": "all folders whose matches are empty, all three types; all lengths without solutions", "why_tests_cant": "a state that only shows up at lengths without solutions", "anchors": ["rust/src/find/find_write.rs: join_pairs", "rust/src/sequences/equivalence.rs: reduce_to_canonical_reps"]}
{"id": "C67", "title": "The two match options join the same pairs", "statement": "For the same lists of sequences, the pair files written with spectral keys (exact real arithmetic, rounded) and with correlation keys hold the same index pairs, and a line of one file has the key of a line of another under one option exactly when it has under the other: rounding the spectra loses no information.", "quantifier": "all lengths n >= 1, all lists of +-1 sequences, all types, tag pairs and sides", "why_tests_cant": "an inversion argument over all lengths; a test compares a few files", "anchors": ["rust/src/find/find_write.rs: write_seq_pairs", "rust/src/sequences/matching.rs: compute_psd_pair, compute_cross_psd_pair"]}
{"id": "C68", "title": "The result does not depend on options or iteration orders", "statement": "The lines of result.seq (and of result-qts.seq) are the same up to order whatever the match option, the pairing, the order in which directories are listed and the iteration order of hash sets.", "quantifier": "all lengths 1..31 for which a solution exists, all three types, all pairs of options and orders", "why_tests_cant": "ranges over pairs of runs and all iteration orders", "anchors": ["driver.sh", "rust/src/find/find_write.rs: write_pairs, join_pairs", "rust/src/main.rs: find_write_quad_seq"]}
{"id": "C69", "title": "Representative of a rearrangement of row sums", "statement": "equivalent(quadruplet,type) never panics and returns the lexicographically least quadruplet obtained by an allowed rearrangement: any rearrangement for types other than QT or when an entry is zero or repeated, and an even rearrangement otherwise. Two quadruplets get the same result exactly when one is an allowed rearrangement of the other. (The function is private and its only caller is commented out; it states the intended equivalence of row sums.)", "quantifier": "all integer quadruplets, all types", "why_tests_cant": "all 24 rearrangements of all integers", "anchors": ["rust/src/sequences/rowsum.rs: equivalent, quad_swap, better_than, quad_contains_zero, quad_contains_dup"]}
{"id": "C70", "title": "Symmetry tests", "statement": "QS::is_symmetric returns true exactly when the entry at index -i equals the entry at index i modulo the length for every i, and QuadSeq::is_symmetric exactly when this holds for each of the four sequences. A +-1 quadruple is symmetric exactly when its quaternion sequence is.", "quantifier": "all quaternion sequences of every length; all quadruples of every length >= 1", "why_tests_cant": "all lengths", "anchors": ["rust/src/sequences/sequence.rs: QS::is_symmetric", "rust/src/sequences/williamson.rs: QuadSeq::is_symmetric, to_qs"]}
{"id": "C71", "title": "Equivalent quadruples give Hadamard-equivalent matrices", "statement": "If two +-1 quadruples of one length are related by the operations considered for quaternion-type sequences, the 4n x 4n matrices that HM::from_williamson builds from them (quaternion-type layout) arise from each other by permuting and negating rows and columns. Under the Williamson-type operations (odd length, or without half shifts) the matrix of one is equivalent to the matrix of the other or to its transpose.", "quantifier": "all +-1 quadruples of every length >= 1, all chains of operations", "why_tests_cant": "all lengths and unbounded chains of operations", "anchors": ["rust/src/sequences/matrices.rs: HM::from_williamson", "rust/src/sequences/equivalence.rs", "rust/src/sequences/matrix_equivalence.rs"]}
{"id": "C72", "title": "driver.sh leaves complete and consistent result files", "statement": "driver.sh qts n (or wts n), with any of the flags -c, -p, -h, -d and without pair directories left over (or with -d), changes nothing but results/pairs/<type>/find_<n>; result.seq and result.qseq list exactly one quadruple per equivalence class, for wts result-qts.seq/.qseq list one per quaternion-type class, with -h result.mat lists exactly one matrix per Hadamard class of the matrices of all quadruples of that length, its number of lines (the number printed) is the number of classes, and result.qhm holds one normalised quaternionic Hadamard matrix per line of result.seq. If pair directories exist and -d is not given nothing changes.", "quantifier": "all lengths 1..31 with a solution, all flags and pairing words, all previous states of the result tree, all hash, directory and canonical-labelling choices", "why_tests_cant": "all environments and previous states; end to end", "anchors": ["rust/driver.sh", "rust/pair_file_cleanup.sh", "rust/sortpairs.sh", "rust/src/main.rs: main, find_write_quad_seq, convert_qs_to_matrices", "rust/src/sequences/matrix_equivalence.rs: hadamard_equivalence_from_file"]}
{"id": "C73", "title": "Command line", "statement": "The program accepts exactly the documented command lines: the right number of arguments for the command, a known type, lengths as unsigned decimal numbers below 2^64 (an optional plus sign allowed), row sums as signed 64-bit numbers, the match options correlation and psd; a pairing that is not WX, WY or WZ counts as no pairing; an unknown command is answered by a message; everything else panics. The arguments determine the command and its parameters as documented.", "quantifier": "all lists of argument strings", "why_tests_cant": "all strings", "anchors": ["rust/src/main.rs: main, str_to_usize, str_to_isize, str_to_seqtype, str_to_match_option, str_to_rowsum_pairing"]}
{"id": "C74", "title": "convert qhm", "statement": "For a result.seq listing quaternion-type quadruples, convert qhm writes one normalised quaternionic Hadamard matrix per line, obtained from the circulant matrix of the sequence by multiplying rows and columns by units, and prints the number of sequences and the number of matrices that contain two non-commuting entries.", "quantifier": "all lists of quaternion-type quadruples of every length >= 1", "why_tests_cant": "all lengths and lists", "anchors": ["rust/src/main.rs: convert_qs_to_matrices", "rust/src/sequences/matrices.rs: QHM"]}
{"id": "C75", "title": "qhm-all", "statement": "For a result.seq listing quadruples of the given type, qhm-all writes one normalised quaternionic Hadamard matrix for every member of the union of their equivalence classes, each member once.", "quantifier": "all lists of quadruples of every type and length 1..100, all hash orders", "why_tests_cant": "all lists and hash orders", "anchors": ["rust/src/main.rs: qhm_write_all", "rust/src/sequences/equivalence.rs: generate_equivalent_quad_seqs"]}
{"id": "C76", "title": "amicable", "statement": "The command amicable succeeds exactly when all quadruples listed in result.seq are quaternion-type sequences; its second assertion, that they are amicable, never fails.", "quantifier": "all lists of +-1 quadruples of every length >= 1", "why_tests_cant": "all lengths", "anchors": ["rust/src/main.rs: verify_qts_eq_wts"]}
{"id": "C77", "title": "Williamson results are not Williamson sequences", "statement": "For ws and length >= 3 the representative of a class (the least member of the Williamson-type class) is never symmetric, so result.seq lists no Williamson sequence at all, and driver.sh -h leaves result.mat unwritten because convert hm panics on its own input (a refutation of the expectation that result.seq lists Williamson sequences). Apart from that result.seq lists one representative per class of Williamson sequences and result.qhm their matrices.", "quantifier": "all lengths 3..31 with a solution; all quadruples of length >= 3", "why_tests_cant": "every length", "anchors": ["rust/driver.sh", "rust/src/sequences/equivalence.rs: reduce_to_canonical_reps", "rust/src/sequences/matrix_equivalence.rs: hadamard_equivalence_from_file"]}
{"id": "C78", "title": "Commands keep to their directory", "statement": "A run of the program changes nothing but the directory results/pairs/<type>/find_<length> of its arguments, with the length in canonical decimal form. Hence driver.sh with a length with a leading zero never produces a result in the directory it looks at (refuting that it does), and for the accepted types its, et1, et2, et3 no result file is ever written.", "quantifier": "all argument lists, all states of the tree", "why_tests_cant": "all states", "anchors": ["rust/src/main.rs: main", "rust/driver.sh", "rust/src/find/find_write.rs: join_pairs"]}
{"id": "C79", "title": "Every command writes its own files only", "statement": "A run changes no file of its directory except its outputs: qhm_all.mat for qhm-all, rowsums.quad for rowsums, result.seq and result.qseq (for wts also result-qts.seq/.qseq) for join, result.mat and result.qhm for the two conversions, the rowsum_... directories for pairs, pairs_rowsum, create and pair_single, nothing for amicable. rowsums writes one line per possible normalised row sum quadruple, each once, and panics if the directory is missing; qhm-all writes one normalised matrix per member of the classes.", "quantifier": "all argument lists, all states of the tree; for rowsums all lengths below 2^64", "why_tests_cant": "all states and lengths", "anchors": ["rust/src/main.rs: main", "rust/src/find/find_write.rs: write_rowsums", "rust/src/main.rs: qhm_write_all"]}
{"id": "C80", "title": "The table reports what the run found", "statement": "After driver.sh qts n or wts n the row that collect_results.py computes from result.log and result.mat has the number of equivalence classes found (W_equ the Williamson-type and Q_equ the quaternion-type classes), with -h the number of Hadamard classes, the number of pairs that countpairs.sh counts, the three times of generating, sorting and matching and nothing else in the sum, and the time of the conversion. Two expectations are refuted: for wts the column QT Equ Time is the time of the reduction to Williamson-type classes, and for ws both class counts are missing (-1). Without -h the column M_equ counts whatever result.mat was there before.", "quantifier": "all lengths 1..31 with a solution, all flags, all elapsed times and warnings, all previous states of the tree, all hash, directory and labelling orders", "why_tests_cant": "regular expressions against every log a run can print", "anchors": ["rust/collect_results.py", "rust/driver.sh", "rust/countpairs.sh", "rust/src/find/find_write.rs: println", "rust/src/main.rs: find_write_quad_seq"]}
{"id": "C81", "title": "Printed number of pairs", "statement": "The total number of pairs printed by the command pairs is the number of lines of all pair files, which is what countpairs.sh prints after sorting.", "quantifier": "all lengths 1..2^62, all three types, match options and pairings", "why_tests_cant": "all lengths", "anchors": ["rust/src/find/find_write.rs: write_pairs, write_seq_pairs", "rust/countpairs.sh", "rust/sortpairs.sh"]}
{"id": "C82", "title": "A search may be split over jobs", "statement": "If the commands pairs_rowsum and pair_single are run one after the other, in any order, so that both pairs of every possible normalised row sum quadruple get written (by one run of pairs_rowsum or by two of pair_single, possibly repeated) then the same directories with the same files result as from one run of pairs, and the remaining steps (sortpairs.sh, join_pairs.sh, convert_hm.sh, convert_qhm.sh) leave complete results: one quadruple per equivalence class, one matrix per Hadamard class. If only some row sums are treated the results list exactly the classes of the quadruples with these row sums.", "quantifier": "all lengths 1..31 (files: 1..2^62), all lists of jobs covering the row sums in any order, all match options and pairings, all directory and hash orders", "why_tests_cant": "all orders and divisions of the work", "anchors": ["rust/src/main.rs: main", "rust/src/find/find_write.rs: write_pairs_rowsum, write_pairs_single", "rust/sortpairs.sh", "rust/join_pairs.sh"]}
{"id": "C83", "title": "The scripts one by one do what driver.sh does", "statement": "Running pairs.sh, sortpairs.sh, join_pairs.sh, (convert_hm.sh) and convert_qhm.sh one after the other leaves exactly the files that driver.sh with the same flags leaves, and the row that collect_results.py computes from the log is the same although the logs differ.", "quantifier": "all lengths 1..31 with a solution (files: 1..2^62), all three types, all flags, all times", "why_tests_cant": "all runs", "anchors": ["rust/pairs.sh", "rust/sortpairs.sh", "rust/join_pairs.sh", "rust/convert_hm.sh", "rust/convert_qhm.sh", "rust/driver.sh", "rust/collect_results.py"]}
{"id": "C84", "title": "driver.sh -d can be repeated", "statement": "A second run of driver.sh -d with the same arguments leaves the tree unchanged, and every file that a run on a fresh tree leaves is left with the same contents by a run on any tree, whatever an earlier search has left there; files the run does not write survive, e.g. an old result.mat.", "quantifier": "all trees, all types, lengths below 2^64, all flags, all hash orders", "why_tests_cant": "all trees", "anchors": ["rust/driver.sh", "rust/pair_file_cleanup.sh"]}
{"id": "C85", "title": "Sorting twice spoils the files", "statement": "If sortpairs.sh is run twice after pairs.sh, the second run adds a file that is no sorted pair file to every directory and join panics.", "quantifier": "all lengths 1..2^62, all three types, all directory orders", "why_tests_cant": "all runs", "anchors": ["rust/sortpairs.sh", "rust/src/find/find_write.rs: join_pairs"]}
{"id": "C86", "title": "Assertions of a debug build", "statement": "In a debug build an operation called with a type panics exactly when one of the quadruples it asserts (the variants it produces; for the half shifts of an even length its argument) is not of that type, and otherwise returns what the release build returns; with the flag for symmetry groups nothing is asserted. Hence for quadruples of the type the equivalence class, equivalent_to and the canonical representative are those of the release build, and for other quadruples they panic. The comparison of the fast with the slow class in reduce_to_equivalence never fails up to length 31 and always fails at length 32. Refuted: equivalent_alternated_negation never panics on a quaternion-type quadruple (it does at length 3).", "quantifier": "all +-1 quadruples of every length (automorphism and classes: up to 100), all 14 operations, all types, all hash orders and fuel", "why_tests_cant": "all quadruples of all lengths; assertions are checked on the inputs a test happens to use", "anchors": ["rust/src/sequences/equivalence.rs: equivalent_*, generate_equivalence_class, generate_symmetry_group", "rust/src/find/find_unique.rs: reduce_to_equivalence", "rust/src/sequences/williamson.rs: equivalent_to"]}
{"id": "C87", "title": "Debug and release builds find the same", "statement": "driver.sh with a debug build leaves exactly the files it leaves with a release build: none of the assertions of pairs, join, convert hm and convert qhm fails. qhm-all agrees on lists of quadruples of the type and panics in a debug build if one line is not of the type; hence (a refutation) after a search for Williamson sequences of length 3 or more qhm-all panics in a debug build and writes its file in a release build.", "quantifier": "all lengths 1..31 with a solution, or without old result files; all three types, all flags, all trees, all hash, directory and labelling orders", "why_tests_cant": "all runs and environments", "anchors": ["rust/src/main.rs: main, find_write_quad_seq, qhm_write_all", "rust/src/find/find_write.rs: join_pairs", "rust/src/sequences/matrix_equivalence.rs: hadamard_equivalence_from_file, is_ns_canonical", "rust/driver.sh"]}
{"id": "C88", "title": "Files of equations for a solver", "statement": "find(p, QT) of find_with_rowsum writes, for every possible normalised row sum quadruple that no later one overwrites, a directory rowsum_<x>-<y>_at_<i>-<j> named after two largest row sums and their positions, with one file num_<k>.opb for each pair of +-1 sequences with these two row sums, each pair once: the two sequences and the row sums as comments, then the equations for the other two sequences. A quaternion-type quadruple with such row sums satisfies the linear equations of its file (for the others see C51). No other files are written and other directories are unchanged. Refuted: that every row sum quadruple has its files (row sums with the same two largest entries share a directory and the later ones overwrite the earlier ones; first at length 45). Other types panic.", "quantifier": "all lengths 1..2^62, all trees, all quaternion-type quadruples", "why_tests_cant": "all lengths and all sequences", "anchors": ["rust/src/find/find_with_rowsum.rs: find, get_two_best, generate_comment, index_to_tag", "rust/src/sequences/equations.rs: generate_equations"]}
{"id": "C89", "title": "Pair files under rounding errors", "statement": "The files of pairs are written from transforms and f64 operations that may each be wrong by a small amount. With the option correlation and errors at most 1/(100 n) every line carries the exact correlations of its pair, every line belongs to a pair whose power spectra exceed 4n by at most the margin 20 n e, and every pair that stays below 4n by this margin has its line. For either option there is an error bound, depending only on the length, below which the file contains only lines of the file of exact arithmetic and all of them but for pairs whose power spectra reach 4n exactly; without such pairs the two files are equal.", "quantifier": "all lengths, types, options, pairs of positions, lists of sequences, and all arithmetics within the error bound", "why_tests_cant": "all roundings", "anchors": ["rust/src/find/find_write.rs: write_seq_pairs", "rust/src/sequences/fourier.rs: iter_over_enumerate_filtered_couples_psds", "rust/src/sequences/matching.rs: compute_auto_correlation_pair_dft, compute_cross_correlations_dft, compute_psd_pair, compute_cross_psd_pair"]}
{"id": "C90", "title": "Warnings about rounding", "statement": "The values that the option psd rounds to integers are never exactly halves. If errors are below 2^-26/(21 n) and the first warning is not printed, the fields of the power spectra are those of exact arithmetic; if the second one is not printed either, so are the fields of the cross spectra of quaternion-type searches whose values are not negative. The second warning is never printed because of negative values, however close to a half they are.", "quantifier": "all lengths, types, lists of sequences and arithmetics within the error bound", "why_tests_cant": "all roundings", "anchors": ["rust/src/find/find_write.rs: write_seq_pairs"]}
{"id": "C91", "title": "Search under rounding errors", "statement": "With errors as in C89 all quadruples found by pairs, sort and join are solutions, and every solution with normalised row sums is found unless one of its two pairs reaches the bound 4n of the filter at some frequency (a tie); below a bound depending only on the length the result has one representative of every class with a normalised member without ties. Ties matter: for every length and every error bound there is an arithmetic with which exactly the solutions without ties are found, and (a refutation of completeness) with length 2 and the pairing (W,X) a search can find nothing and panic although there are solutions.", "quantifier": "all lengths below 2^62 (classes: 1..31), all three types, options, pairings, directory orders and arithmetics within the error bound", "why_tests_cant": "all roundings", "anchors": ["rust/src/find/find_write.rs: write_pairs, join_pairs", "rust/src/sequences/fourier.rs: iter_over_enumerate_filtered_couples_psds"]}
{"id": "C92", "title": "Odd prime lengths have no ties", "statement": "For an odd prime length no coefficient of the spectrum of a non-constant +-1 sequence vanishes, so no solution has a tie, and a search with small enough rounding errors finds exactly what the search without errors finds: all solutions with normalised row sums, and one representative of every class.", "quantifier": "all odd prime lengths below 2^62 (classes: up to 31), all types, options, pairings and arithmetics within the error bound", "why_tests_cant": "all roundings and all solutions", "anchors": ["rust/src/find/find_write.rs: write_pairs, join_pairs", "rust/src/sequences/fourier.rs: iter_over_enumerate_filtered_couples_psds"]}
{"id": "C93", "title": "Matching by complements", "statement": "For a +-1 quadruple of any length and any order of its four tags: the quadruple is of quaternion type exactly when the autocorrelations and cross-correlations of the first two sequences equal the complementary ones of the other two and verify_cross_correlation of these sequences with their tags returns true. None of these functions panics on four different tags; verify_cross_correlation panics when a tag is missing, and the cross-correlations of a pair panic exactly when both tags are W, both X or both Y. Exchanging two sequences together with their different tags changes nothing. (The identities it tests carry the opposite sign of those of QuadSeq::verify; for complementary quadruples both mean amicable.)", "quantifier": "all lengths, all +-1 quadruples, all 24 orders of the tags", "why_tests_cant": "all quadruples", "anchors": ["rust/src/sequences/matching.rs: compute_complementary_auto_correlations, compute_complementary_cross_correlations, verify_cross_correlation, MatchData"]}
{"id": "C94", "title": "What a panicking command leaves behind", "statement": "A command that panics changes at most its own output files in the directory of its arguments; arguments it does not understand change nothing. join (lengths 1..31, pair files of that length), convert hm (no empty line in the list) and qhm-all (lines of at most 100 letters) leave everything unchanged when they panic. Two expectations of this kind are refuted: convert qhm panics exactly when a line of result.seq has a letter outside the 24, and then the old result.qhm has become empty; create with a pairing other than WX, WY, WZ panics after it has made an empty directory.", "quantifier": "all trees of files, arguments, types, hash orders, directory orders", "why_tests_cant": "all trees", "anchors": ["rust/src/main.rs: main, find_write_quad_seq, convert_qs_to_matrices, qhm_write_all", "rust/src/find/find_write.rs: write_pairs, write_pairs_rowsum, write_pair_single_rowsum, create_rowsum_dirs", "rust/src/sequences/matrix_equivalence.rs: hadamard_equivalence_from_file"]}
{"id": "C95", "title": "driver.sh goes on after a panic", "statement": "driver.sh does not stop when one of its commands panics. For the three types and lengths 1..31, on any tree whose old result.seq and result-qts.seq (if any) hold non-empty lines of letters the program can read, the files it leaves are those it would leave if a panicking command had done nothing, so the properties of driver.sh hold with panics included. For the types its, et1, et2, et3 it writes no result file and no pair but leaves at least one directory of row sums, and the next run without -d stops at once and changes nothing.", "quantifier": "all such trees, all flags, types, hash orders, directory orders", "why_tests_cant": "all trees and lengths", "anchors": ["rust/driver.sh", "rust/src/main.rs: main", "rust/src/find/find_write.rs: write_pairs"]}
{"id": "C96", "title": "Jobs of a split search may run at the same time", "statement": "The jobs of a split search (pairs_rowsum, pair_single) may run as processes on one folder at the same time, several of them writing the same files: however their calls to the file system are mixed, none of them panics, and afterwards the files are those of running the jobs one after the other. If the jobs cover all normalised row sums and the folder was empty, the remaining commands of driver.sh on whatever folder is read from the disk then give one representative of every class. Before all of them have ended a file may hold zero bytes.", "quantifier": "all interleavings of the calls (create_dir_all, File::create, File::write of a whole buffer) of all lists of jobs with possible row sums, with repetitions, all lengths 1 <= n < 2^62 (results: up to 31), the three types, all contents of the folder before", "why_tests_cant": "Tests run one process; the number of interleavings grows exponentially and the ones that overlap in a file are rarely met", "anchors": ["rust/src/find/find_write.rs: write_pairs_rowsum, write_pair_single_rowsum, write_seq_pairs, write_sequences", "rust/src/main.rs: main"]}
{"id": "C97", "title": "Searches of one length agree", "statement": "The searches driver.sh makes for one length agree with each other, whatever the options, the contents of the tree before and the orders of directories and hash sets: result.seq of qts and result-qts.seq of wts hold the same lines up to order, every line of result.seq of wts is one of them, every line of result.seq of ws is a line of result.seq of wts, no line occurs twice, and the matrices in result.mat of qts and wts match one to one up to Hadamard equivalence. Two searches for the same type agree in the same way.", "quantifier": "all lengths 1..31 with a solution, all options, trees and environments, the three types", "why_tests_cant": "A test compares two runs on one machine; this is about all options and all orders, and rests on the classes of the types being nested", "anchors": ["rust/src/main.rs: find_write_quad_seq, main", "rust/src/find/find_unique.rs: reduce_to_canonical_reps", "rust/driver.sh", "rust/src/sequences/equivalence.rs"]}
{"id": "C98", "title": "Exploratory searches", "statement": "The searches for perfect quaternion sequences fix the first letter to 1 and lose nothing by it: over the 24 units there are exactly 24 perfect sequences for each one listed; over the 16 letters of QPLUS there are 8 starting with +-1, +-i, +-j, +-k for each one listed, and every perfect sequence is on a line after a rotation and a multiplication from the left. Something is found exactly at the lengths of quaternion-type sequences. Searches with symmetry II, III, IV at even lengths list nothing unless the length is divisible by 4, divisible by 8, equal to 4. find_pqs treats the lengths 1..17, skipping odd ones for these symmetries; find_williamson and find_williamson_type treat 1..14. unique_wts has one line for every class of quaternion type (a missing directory is a panic); that its lines are inequivalent as Williamson-type sequences is refuted at length 4.", "quantifier": "all lengths >= 1 (unique_wts: 1..100), all symmetries, schedules of the threads and hash orders", "why_tests_cant": "all lengths and schedules", "anchors": ["rust/src/main.rs: find_pqs, find_pqs_of_type, find_williamson, find_williamson_type, find_unique_williamson_type_of_size", "rust/src/find/find_optim.rs: find, find_q24", "rust/src/find/find_naive.rs: find", "rust/src/find/find_unique.rs: find"]}
{"id": "C99", "title": "What the tests check on samples", "statement": "For every +-1 quadruple of every length the three identities of verify_cross_correlation hold exactly when the six pairs are amicable (no complementarity needed; the test tries length 5). For any order of the tags the quadruple is amicable exactly when the cross-correlations of the first pair equal the complementary ones of the second and verify_cross_correlation of matching.rs returns true; the latter alone is not enough (refuted at length 3). generate_sequences_with_rowsum(r, n) returns binomial(n, (n+r)/2) sequences, none if n + r is odd or out of range. Filtering all equivalent quadruples by their row sums before reduce_to_equivalence leaves the same representatives (Proposition 5). The negations return 5, 7, 2 (1 at length 1), and 2 or 1 quadruples.", "quantifier": "all lengths >= 1 (reductions: up to 31; row sums and lengths below 2^62), all +-1 quadruples, all lists of sequences of the type, all hash orders", "why_tests_cant": "the tests try one length or a few samples", "anchors": ["rust/src/sequences/williamson.rs: verify_cross_correlation, is_amicable", "rust/src/sequences/matching.rs: verify_cross_correlation, compute_cross_correlations, compute_complementary_cross_correlations", "rust/src/sequences/rowsum.rs: generate_sequences_with_rowsum", "rust/src/sequences/equivalence.rs: filter_by_rowsums, generate_equivalent_quad_seqs, equivalent_negate, equivalent_double_negate, equivalent_alternated_negation, equivalent_even_alternated_negation", "rust/src/find/find_unique.rs: reduce_to_equivalence", "rust/src/tests"]}
{"id": "C100", "title": "Number of symmetries and sizes of classes", "statement": "The symmetry group generated for a type and a length has exactly this many elements, with phi Euler's function: quaternion type 192 n phi(n) for odd n and 1536 n phi(n) for even n, Williamson type 384 n phi(n) and 6144 n phi(n), Williamson 384 phi(n) and 12288 phi(n), other types 1. For every list of operations the number of members of the equivalence class of a quadruple times the number of symmetries fixing it is the number of symmetries; hence the size of a class divides the number above.", "quantifier": "all lengths 1..31 (class and stabilizer: also 0), all quadruples of i8 entries, all lists of the operations, all types, hash orders", "why_tests_cant": "the group of length 18 has 165888 elements; a test can count one group, not explain its size for every length", "anchors": ["rust/src/sequences/equivalence.rs: generate_symmetry_group, generate_equivalence_class, generate_equivalence_class_fast, equivalent_*", "rust/src/sequences/williamson.rs: SequenceType::equivalences"]}
{"id": "C101", "title": "Functions no command calls", "statement": "The couples with their positions are exactly the positions of two sequences whose spectra stay within the bound at all frequencies, each once, and without the positions they are the list the search uses. are_isomorphic on the graphs of two Hadamard matrices decides Hadamard equivalence. Writing the first halves of all pairs and then the second halves, or the other way round, leaves the files of writing all pairs at once. contains decides membership among quadruples of one length; equals alone takes a sequence for equal to any continuation of it (refuted as equality) and panics when the second sequence ends first. The iterator of a quadruple yields its four sequences one after the other. set_values does not change the size: values beyond the size are printed but ignored by the correlations and the tests, and missing values make them panic. A new quaternion matrix is full of ones and col returns the column of a square matrix.", "quantifier": "all lists of sequences of one length n >= 1 and all bounds; all Hadamard matrices and canonical labellings; the three searched types, all lengths below 2^62, options and pairings; all sequences, quadruples, sets and square matrices", "why_tests_cant": "all lengths and all inputs, among them inputs of unequal lengths", "anchors": ["rust/src/sequences/fourier.rs: iter_over_enumerate_filtered_couples", "rust/src/sequences/matrix_equivalence.rs: are_isomorphic", "rust/src/find/find_write.rs: write_pair_single", "rust/src/find/find_unique.rs: equals, contains", "rust/src/sequences/williamson.rs: into_iter", "rust/src/sequences/sequence.rs: QS::set_values", "rust/src/sequences/matrices.rs: QHM::new, QHM::col"]}
{"id": "C102", "title": "Printed operators and measurements determine them", "statement": "Printing never panics on a square operator, and two operators (of any sizes), two sequences of operators with the same size field, or two unitaries with the same text are equal, whatever the text of a complex number looks like, as long as it determines the number and contains neither a space nor a bar. The size field of a measurement is not printed: two empty measurements of different size have the same text (refuted). MUM::empty and HMUO::empty consist of zero matrices of the given size and number, and HMUO::new keeps the size and operator it is given.", "quantifier": "all square operators, all lists of them, all texts of numbers", "why_tests_cant": "all sizes, entries and numbers of operators", "anchors": ["rust/src/sequences/mum.rs: Operator::to_string, MUM::to_string, HMUO::to_string, MUM::empty, HMUO::empty, HMUO::new"]}
{"id": "C103", "title": "Length 32: reported sequences that are no solutions", "statement": "From length 32 on the results are not reliable (the search is exact for lengths 1..31). For lists of solutions of length 32 the reduction to representatives returns the same set for all hash orders, and every representative is an equivalent solution or no solution of any type at all. The latter happens: the driver, run for length 32 with any of the three types, match options and pairings, writes a line to result.seq whose sequence is not perfect, and equiv returns false for two equivalent solutions.", "quantifier": "all lists of solutions of length 32, all three types, match options, pairings, directory and hash orders", "why_tests_cant": "a search at length 32 takes far too long for a test, and one has to know the least member of the class to see that the reported one is wrong", "anchors": ["rust/src/sequences/equivalence.rs: qt_canonical, generate_equivalence_class_fast, generate_symmetry_group, equiv", "rust/src/find/find_unique.rs: reduce_to_canonical_reps", "rust/src/find/find_write.rs: join_pairs"]}
{"id": "C104", "title": "From length 64 on nothing is found", "statement": "From length 64 on the search always ends in a panic, whether or not there are solutions (refuting that it works for the lengths it accepts): the pairs are found and sorted, but join panics when it reduces the matches to representatives, for every type, option, pairing and hash order, so that driver.sh leaves the sorted pairs and no result file. equiv panics for any two solutions. Up to length 100 the symmetry group is computed but applying it panics, because the 256th symbol is 0 as an i8; above 100 computing the group panics, because the table of coprime numbers ends at 100.", "quantifier": "all lengths from 64 to 2^62 (representatives and equiv: without a bound), all lists of quadruples of one length, all three types, options, pairings, trees without old results, directory and hash orders", "why_tests_cant": "no search of such a length ends within the time of a test", "anchors": ["rust/src/sequences/equivalence.rs: generate_symmetry_group, generate_equivalence_class_fast, equivalent_automorphism, equiv", "rust/src/find/find_unique.rs: reduce_to_canonical_reps", "rust/src/find/find_write.rs: join_pairs", "rust/driver.sh"]}
{"id": "C105", "title": "Lengths 33 to 63: results are images of other quadruples", "statement": "For lengths 33..63 the reduction to representatives never panics and does not depend on hash orders, but it takes every quadruple for another one: counted through the four sequences, the entries from number 128 on (i = 128, 129, ...) are replaced by the negated entries 254 - i, and entry 127 by a negated earlier entry that depends on the length. For odd lengths the representatives are exactly the least equivalent quadruples of these; for even lengths they are equivalent to them up to the sign of entry 127. Hence two quadruples with the same first 128 entries always get the same representative (refuting that representatives tell inequivalent quadruples apart). For the 16 lengths 33, 34, 37, 38, 40, 42, 45, 46, 49, 50, 51, 54, 55, 57, 58, 62 the driver writes a sequence that is not perfect, for each of the three types, and at length 37 equiv returns false for two equivalent solutions.", "quantifier": "all lengths 33..63, all lists of +-1 quadruples, all three types, match options, pairings, directory and hash orders (driver: the 16 lengths given)", "why_tests_cant": "no search of such a length ends within the time of a test", "anchors": ["rust/src/sequences/equivalence.rs: qt_canonical, generate_equivalence_class_fast, generate_symmetry_group, equiv", "rust/src/find/find_unique.rs: reduce_to_canonical_reps", "rust/src/find/find_write.rs: join_pairs"]}
{"id": "C106", "title": "Killed jobs can be repeated", "statement": "If jobs of a split search are killed at any moment, even in the middle of a write, while other jobs run at the same time, and the killed ones are started again afterwards (again all at the same time), no program panics, the files are those of running every job once, one after the other, and, if the jobs cover the normalised row sums, the remaining steps find one representative of every class. A killed job that is not repeated can go unnoticed: killed when all its files exist, it leaves a directory on which the remaining steps do not panic, and they list the classes of the other jobs only; of odd length they then list no class with the row sums of the killed job.", "quantifier": "all lists of jobs, all points at which they are killed, all interleavings; lengths 1..2^62 (results: 1..31), all environments", "why_tests_cant": "all points in time and interleavings", "anchors": ["rust/src/find/find_write.rs: write_pairs_rowsum, write_pair_single, write_seq_pairs, join_pairs", "rust/src/main.rs: main", "rust/sortpairs.sh", "rust/join_pairs.sh"]}
{"id": "C107", "title": "Row sums of equivalent quadruples", "statement": "Of odd length all members of an equivalence class have the same four row sums up to order and signs; of even length this holds for the row sums together with the alternating sums, which may change places in all four sequences at once. Hence of odd length a class has members at exactly one of the normalised row sums at most, and the results of searches over disjoint sets of row sums can be put together: no two of them are equivalent and together they are one representative of every class at these row sums. Of even length this is refuted: at length 18 there is a quaternion-type class with members at (2,4,4,6) and (0,2,2,8).", "quantifier": "all lengths (equivalence class function: up to 100), all three types, all hash orders", "why_tests_cant": "all classes and lengths", "anchors": ["rust/src/sequences/equivalence.rs: generate_equivalence_class", "rust/src/sequences/williamson.rs: QuadSeq", "rust/src/find/find_write.rs: write_pairs_rowsum"]}
{"id": "C108", "title": "Overflow checks of a debug build", "statement": "In a debug build an overflow of i8 arithmetic is a panic. An operation on quadruples panics exactly when it negates an entry -128; classes of solutions are those of the release build. Up to length 31 the symmetry group, the representatives, equiv, reduce_to_equivalence and the files that driver.sh leaves are those of a release build. From length 32 on the representatives are a panic for every list, equiv panics for any two solutions and driver.sh leaves the sorted pairs and no result file (a release build writes wrong results for lengths 32 to 63): the symbol 128 is -128 as an i8 and has no absolute value. HM::verify never gives a wrong answer for a +-1 matrix in such a build; up to size 127 it answers like a release build and up to size 255 it accepts every Hadamard matrix. From size 128 on it panics on a matrix of ones (which a release build accepts at multiples of 256), and (a refutation) it panics on a Hadamard matrix of size 256.", "quantifier": "all lengths, quadruples, types, options, trees and hash orders; all +-1 matrices of all sizes", "why_tests_cant": "a test run in debug mode meets a few lengths", "anchors": ["rust/src/sequences/equivalence.rs: negated, alt_negated, equivalent_negate, equivalent_double_negate, equivalent_negate_swap, generate_equivalence_class_fast, equiv", "rust/src/find/find_unique.rs: reduce_to_canonical_reps, reduce_to_equivalence", "rust/src/find/find_write.rs: join_pairs", "rust/src/main.rs: main", "rust/driver.sh", "rust/src/sequences/matrices.rs: HM::verify"]}
{"id": "C109", "title": "The flag -s for SLURM jobs", "statement": "With the program compiled and SLURM_TMPDIR one word (a path without blanks) driver.sh, pairs.sh and sortpairs.sh with -s leave exactly the files they leave without it. If the program is not compiled, driver.sh -s and pairs.sh -s go on after their message and leave an empty folder (with -d the old directories are gone). Two expectations are refuted: if SLURM_TMPDIR is unset or blank, sort takes the name of the pair file for its directory, sorts its empty standard input and succeeds, so that every pair file is deleted and an empty sorted file is left, join panics and there is no result; if SLURM_TMPDIR has several words, sort fails, there is no result either, but the pair files are kept and sortpairs.sh, join_pairs.sh, convert_hm.sh and convert_qhm.sh then complete the run to the files of a run without -s.", "quantifier": "all values of the variable, arguments, flags, trees and environments (refutations: all lengths below 2^62, the three types, folders without result.seq and result-qts.seq)", "why_tests_cant": "a test has one environment; the loss needs a job whose standard input is empty", "anchors": ["rust/driver.sh", "rust/pairs.sh", "rust/sortpairs.sh", "rust/src/main.rs: main", "rust/src/find/find_write.rs: join_pairs"]}
{"id": "C110", "title": "A full disk may go unnoticed", "statement": "pairs_rowsum and pair_single on a disk with room for all they write end without a panic and leave exactly the files of an unlimited disk, whatever was in the folder before. With less room, on new files, they panic exactly if there is no room for the first byte of their last non-empty write. Otherwise the run ends as if nothing had happened, the end of the file of that write (exactly the missing number of bytes) is lost, and every other file is complete. So 'a run that does not panic has written its files' is refuted: for every job on the row sums of some quadruple there is a size of the disk on which its files are cut without a panic. (File::write is called once per line or per 1000 lines and the number of bytes it has written is ignored.)", "quantifier": "all command lines of the two commands that do not panic by themselves, all disks and amounts of free space (refutation: all jobs of lengths 1 to below 2^62, the three types)", "why_tests_cant": "a test has no full disk, and the loss depends on the exact number of free bytes", "anchors": ["rust/src/find/find_write.rs: write_sequences", "rust/src/find/find_write.rs: write_seq_pairs", "rust/src/find/find_write.rs: write_pairs_rowsum", "rust/src/find/find_write.rs: write_pair_single_rowsum", "rust/src/main.rs: main"]}
{"id": "C111", "title": "Jobs with different options", "statement": "The jobs of a split search may use different match options and pairings as long as the jobs of the same row sums use the same: after the remaining steps result.seq still lists one least representative of every class. The jobs of one row sum must agree on the pairing. If for some row sum the number of different pairs written is not two, join panics; if for no row sum the written pairs are the two pairs of one pairing, join panics; and whenever join does not panic, every quadruple it lists is equivalent to one whose row sums got the two pairs of one pairing. (Two halves written under different pairings, or one row sum written under two pairings, find nothing, and for the whole search this is a panic or a silent loss.)", "quantifier": "all lists of pairs_rowsum and pair_single jobs on feasible row sums, each with its own match option and pairing, on a folder without directories, all environments; lengths 1 to below 2^62 for the panics, 1 to 31 for the lists", "why_tests_cant": "the combinations of jobs and options are unbounded, and a test would use one pairing", "anchors": ["rust/src/find/find_write.rs: write_pairs_rowsum", "rust/src/find/find_write.rs: write_pair_single_rowsum", "rust/src/find/find_write.rs: join_pairs", "rust/src/find/find_write.rs: get_order_from_dir", "rust/src/main.rs: main"]}
{"id": "C112", "title": "The text printed by pairs", "statement": "On a folder without directories the command pairs prints exactly these lines: the length; the row sums, one line each, which are the feasible normalised ones, each once; their number; for every row sum, in the same order, the row sums, for each of the four components the number of sequences of this length and row sum (symmetric ones for ws), the time, for each of the two pairs of the pairing the number of lines of its file and the warnings that apply, and the time; and finally the sum of these numbers and the total time. Numbers are written in decimal, times with two decimals.", "quantifier": "all lengths 1 to below 2^62, the three types, both match options, all pairing arguments, all environments, times and warnings", "why_tests_cant": "all lengths and row sums; the log of a long search is its only record", "anchors": ["rust/src/find/find_write.rs: write_pairs", "rust/src/find/find_write.rs: write_pairs_rowsum", "rust/src/find/find_write.rs: write_seq_pairs", "rust/src/main.rs: main"]}
{"id": "C113", "title": "The text printed by join", "statement": "Whenever the command join succeeds, it prints for every directory in the order of the listing the names of its two sorted pair files in the order of the listing and a number of matches, which is at most the number of pairs of lines with the same key, and exactly this number for sorted files in which no key is the beginning of another one; then the time, a number of sequences found that is at most the sum of the matches, a number after filtering that is not larger, and the number of lines of result.seq; for qts then, without a line break at its end, one remark for every listed sequence that is not amicable, with its text, in the order of the list; for wts the number of lines of result-qts.seq. Nothing else is printed.", "quantifier": "all folders on which join succeeds, all lengths, types, environments and times", "why_tests_cant": "all contents of the files and all orders of the listing", "anchors": ["rust/src/find/find_write.rs: join_pairs", "rust/src/find/find_write.rs: join_pairs_files", "rust/src/main.rs: find_write_quad_seq"]}
{"id": "C114", "title": "The text of result.log", "statement": "When driver.sh runs on a folder without directories of row sums and none of its commands fails, result.log holds, whatever it held before, exactly: the text of pairs (C112); a line for each of the two files of pairs of every directory, each directory once, and the time of sorting; the text of join (C113) on the sorted files; with the option for Hadamard matrices the name of the file that is read (result-qts.seq for wts), the number of matrices in result.mat, the time and this number again; the name of result.seq, the number of its lines, the length, the number of matrices with entries that do not commute, and the two times. Up to length 31, if there is a solution, only the conversion to Hadamard matrices can fail.", "quantifier": "all lengths 1 to below 2^62, the three types, both match options, all pairing arguments, with and without Hadamard matrices, all trees, environments and times", "why_tests_cant": "the file is written by five programs one after the other, and every number in it depends on the results of a search", "anchors": ["rust/driver.sh", "rust/sortpairs.sh", "rust/convert_qhm.sh", "rust/src/main.rs: convert_qs_to_matrices", "rust/src/main.rs: main"]}
{"id": "C115", "title": "Files of pairs that have lost lines", "statement": "Take the files the command pairs writes and remove any lines from the .pair files (a truncated copy, a full disk that was not noticed, a hand edit); the other lines may change their order. Sorting and joining never panics on reading or matching such files, and the quadruples found are exactly those of the type with normal row sums whose two lines, one in each of the two files of their directory, are still there. The reduction then lists exactly one least member of each class that has such a quadruple, and it panics if and only if there is none. The files as written have both lines of every quadruple of the type. So missing lines are never reported, they only lose solutions, and never add any.", "quantifier": "all lengths 1 to below 2^62 (1 to 31 for the reduction), the three types (qts and wts for the reduction), both match options, all pairings, all ways to remove lines, all directory orders", "why_tests_cant": "there are exponentially many ways to remove lines, and whether a class survives depends on all its members", "anchors": ["rust/src/find/: join_pairs", "rust/src/find/: join_pairs_files", "rust/src/find/: write_seq_pairs", "rust/sortpairs.sh", "rust/join_pairs.sh"]}
{"id": "C116", "title": "Files of pairs that end too early", "statement": "When .pair files written by the command pairs are cut after any number of bytes (a killed copy, a full disk), or any of their lines are, sorting and joining either panics or finds only quadruples of the type, of the length and with normal row sums, and among them all those whose two lines are whole. A cut line that still looks like a line may name another pair of sequences: it can only repeat or add solutions, never a quadruple that is none. If the command join does not panic, its result lists distinct least members of classes, and exactly one of each class with a quadruple whose two lines are whole.", "quantifier": "all lengths 1 to below 2^62 (1 to 31 for the reduction), the three types (qts and wts for the reduction), both match options, all pairings, all cuts of all lines, all directory orders", "why_tests_cant": "a test tries a few cuts of a small file; whether a cut line is readable, and where it is sorted, depends on the byte", "anchors": ["rust/src/find/: join_pairs", "rust/src/find/: join_pairs_files", "rust/src/find/: get_line_from", "rust/sortpairs.sh"]}

{"id": "C01", "title": "gf128 multiplication is multiplication in GF(2)[X]/(X^128+X^7+X^2+X+1)", "statement": "For any two gf128 values a and b, a*b (portable implementation) is the unique 128-bit remainder of the carry-less product of a and b modulo X^128+X^7+X^2+X+1.", "quantifier": "all pairs of 128-bit values", "why_tests_cant": "2^256 operand pairs; the unit test samples ten products.", "anchors": ["distributed_vector_ole/gf128.cpp:operator*=", "distributed_vector_ole/gf128.h:gf128"]}
{"id": "C02", "title": "The CLMUL and the portable gf128 multiplication agree", "statement": "For any two gf128 values the PCLMULQDQ code path (USE_ASM) and the portable loop return the same 128 bits, so parties built with different options interoperate.", "quantifier": "all pairs of 128-bit values", "why_tests_cant": "A build contains only one of the two paths, and the operand space is 2^256.", "anchors": ["distributed_vector_ole/gf128.cpp:operator*=", "distributed_vector_ole/BUILD:gf128 local_defines"]}
{"id": "C03", "title": "gf128 is a field of characteristic two", "statement": "With +, -, unary minus, *, zero() and one() gf128 satisfies all commutative ring laws, x+x=0, x-y=x+y, -x=x, and has no zero divisors.", "quantifier": "all values", "why_tests_cant": "Algebraic laws quantify over all (triples of) elements.", "anchors": ["distributed_vector_ole/gf128.cpp:operator+=", "distributed_vector_ole/gf128.cpp:operator-=", "distributed_vector_ole/gf128.cpp:operator-", "distributed_vector_ole/gf128.cpp:operator*"]}
{"id": "C04", "title": "gf128::inverse is the multiplicative inverse", "statement": "For every nonzero a, a * a.inverse() = one(); and zero().inverse() = zero().", "quantifier": "all 2^128 elements", "why_tests_cant": "The test draws a single random element.", "anchors": ["distributed_vector_ole/gf128.cpp:inverse", "distributed_vector_ole/gf128.cpp:square"]}
{"id": "C05", "title": "gf128::multiplicative_generator generates the multiplicative group", "statement": "The powers multiplicative_generator^k for 0 <= k < 2^128-1 are pairwise distinct and are exactly the nonzero elements.", "quantifier": "all nonzero elements / all exponents", "why_tests_cant": "The group has 2^128-1 elements; no enumeration is possible.", "anchors": ["distributed_vector_ole/gf128.h:multiplicative_generator", "distributed_vector_ole/gf128.cpp:multiplicative_generator"]}
{"id": "C06", "title": "gf128 and emp::block conversions are lossless", "statement": "Constructing a gf128 from two words or from a uint128 and reading it back (as_words, operator uint128) returns the same data; equality is equality of the 128 bits; GGMTreeToEMPBlock and EMPToGGMTreeBlock are mutually inverse.", "quantifier": "all 128-bit values, all pairs of words", "why_tests_cant": "2^128 values.", "anchors": ["distributed_vector_ole/gf128.cpp:as_words", "distributed_vector_ole/gf128.cpp:operator absl::uint128", "distributed_vector_ole/internal/all_but_one_random_ot_internal.h:EMPToGGMTreeBlock", "distributed_vector_ole/internal/all_but_one_random_ot_internal.h:GGMTreeToEMPBlock"]}
{"id": "C07", "title": "GGMTree::Create expands exactly the GGM tree", "statement": "For at least two keys and num_leaves>=1, if Create succeeds then the root is the seed and the value of child j of every node v is AES(k_j, v) xor v; the leaf level has num_leaves nodes, each inner level has ceil(next/arity) nodes, and Create fails only when the floating point level count is too small for num_leaves.", "quantifier": "all arities, leaf counts, seeds, keys, block ciphers and all values of the floating point level count", "why_tests_cant": "Tests cover arity<10, fewer than 50 leaves and one seed; the floating point logarithm is platform dependent.", "anchors": ["distributed_vector_ole/ggm_tree.cpp:GGMTree::Create", "distributed_vector_ole/ggm_tree.cpp:AllocateLevels", "distributed_vector_ole/ggm_tree.cpp:GGMTree::ExpandSubtree", "distributed_vector_ole/ggm_tree.cpp:ComputePRG"]}
{"id": "C08", "title": "GGMTree node queries are exact and range checked", "statement": "GetValueAtNode/GetValueAtLeaf return the node value for every level and node in range and INVALID_ARGUMENT for every other pair of integers; they never read out of bounds.", "quantifier": "all trees, all (level,node) integer pairs", "why_tests_cant": "The index space is unbounded.", "anchors": ["distributed_vector_ole/ggm_tree.cpp:GGMTree::GetValueAtNode", "distributed_vector_ole/ggm_tree.h:GetValueAtLeaf"]}
{"id": "C09", "title": "GetSiblingWiseXOR returns the per-position XOR of every level", "statement": "The result has num_levels()-1 rows of arity() blocks; row l, entry j is the XOR of all nodes i of level l+1 with i mod arity = j.", "quantifier": "all trees with levels of at most 2^31 nodes", "why_tests_cant": "Unbounded tree shapes and contents.", "anchors": ["distributed_vector_ole/ggm_tree.cpp:GGMTree::GetSiblingWiseXOR", "distributed_vector_ole/ggm_tree.cpp:XORBlocks"]}
{"id": "C10", "title": "CreateFromSiblingWiseXOR reconstructs the tree except the path to the missing leaf", "statement": "For a tree T and any missing leaf, CreateFromSiblingWiseXOR given T's sibling-wise XORs and keys succeeds and yields a tree that equals T at every node not on the root-to-missing-leaf path and is zero on that path.", "quantifier": "all arities >= 2, leaf counts up to 2^31, missing indices, seeds, keys", "why_tests_cant": "The existing test even compares the reconstructed tree with itself (tree2 vs tree2); sizes, positions and seeds are unbounded.", "anchors": ["distributed_vector_ole/ggm_tree.cpp:GGMTree::CreateFromSiblingWiseXOR"]}
{"id": "C11", "title": "Reconstruction ignores the XOR entries on the missing path", "statement": "Two sibling-wise XOR tables that differ only at the entries on the path to the missing leaf produce the same tree: a receiver needs, and uses, only the off-path entries.", "quantifier": "all tables, all missing indices", "why_tests_cant": "Relational property over pairs of inputs.", "anchors": ["distributed_vector_ole/ggm_tree.cpp:GGMTree::CreateFromSiblingWiseXOR", "distributed_vector_ole/ggm_tree.h:CreateFromSiblingWiseXOR"]}
{"id": "C12", "title": "Exact argument boundary of CreateFromSiblingWiseXOR", "statement": "Documented bad arguments (arity<2, num_leaves<=0, missing_index>=num_leaves, rows of wrong length, too few rows, no keys) are rejected with INVALID_ARGUMENT without touching memory; valid arguments never cause out-of-bounds access. The check is incomplete: a missing_index that is negative enough, or fewer keys than arity, is not rejected and is undefined behaviour.", "quantifier": "all arguments", "why_tests_cant": "Out-of-bounds behaviour cannot be asserted by a test and the argument space is unbounded.", "anchors": ["distributed_vector_ole/ggm_tree.cpp:GGMTree::CreateFromSiblingWiseXOR"]}
{"id": "C13", "title": "XOR accumulation is memory safe exactly up to 2^31 nodes per level", "statement": "Sibling-wise XOR accumulation over a level of at most 2^31 nodes stays in bounds; on any larger level the 32-bit loop index wraps and the access is out of bounds.", "quantifier": "all level sizes", "why_tests_cant": "A failing run needs more than 32 GiB of seeds.", "anchors": ["distributed_vector_ole/ggm_tree.cpp:XORBlocks"]}
{"id": "C14", "title": "All-but-one random OT delivers every element except the chosen ones", "statement": "For any batch of output sizes (including empty ones) and in-range indices, after RunSenderBatched/RunReceiverBatched sender and receiver hold the same elements at every position except the receiver's index in each vector, where the receiver holds the zero-seed value; every sender element is the conversion of the corresponding GGM leaf.", "quantifier": "all batches, sizes, indices, scalar types, random seeds, all message schedules", "why_tests_cant": "Unbounded batches; offsets into the shared OT batch depend on all earlier sizes.", "anchors": ["distributed_vector_ole/all_but_one_random_ot.h:RunSenderBatched", "distributed_vector_ole/all_but_one_random_ot.h:RunReceiverBatched", "distributed_vector_ole/all_but_one_random_ot.h:SendTrees", "distributed_vector_ole/all_but_one_random_ot.cpp:ReceiveTrees", "distributed_vector_ole/internal/all_but_one_random_ot_internal.h:UnpackLastLevel"]}
{"id": "C15", "title": "The random-OT receiver rejects bad indices before communicating", "statement": "RunReceiver/RunReceiverBatched return INVALID_ARGUMENT, with no message exchanged, whenever the number of indices differs from the number of outputs or some index is negative or beyond a non-empty output; otherwise they do not reject.", "quantifier": "all index and size lists", "why_tests_cant": "Unbounded argument space; absence of communication is not observable in the tests.", "anchors": ["distributed_vector_ole/all_but_one_random_ot.h:RunReceiver", "distributed_vector_ole/all_but_one_random_ot.h:RunReceiverBatched"]}
{"id": "C16", "title": "The random-OT sender learns nothing about the receiver's indices", "statement": "With an ideal OT, everything the sender sends, receives and outputs is the same for any two lists of receiver indices.", "quantifier": "all pairs of index lists, all seeds", "why_tests_cant": "Relational (2-run) property.", "anchors": ["distributed_vector_ole/all_but_one_random_ot.h:SendTrees", "distributed_vector_ole/all_but_one_random_ot.cpp:ReceiveTrees"]}
{"id": "C17", "title": "SPFSS shares add up to the point function", "statement": "For any batch, after RunValueProviderBatched/RunIndexProviderBatched the two output vectors of entry j add up to val_share_V[j]+val_share_I[j] at indices[j] and to 0 everywhere else; empty outputs are left alone.", "quantifier": "all batches, sizes, indices, shares, scalar types, randomness, schedules", "why_tests_cant": "Tests run sizes below 15 with one pair of shares.", "anchors": ["distributed_vector_ole/spfss_known_index.h:RunValueProviderBatched", "distributed_vector_ole/spfss_known_index.h:RunIndexProviderBatched"]}
{"id": "C18", "title": "SPFSS argument checks happen before any communication", "statement": "Mismatched lengths of val_shares, indices and outputs, and out-of-range indices, give INVALID_ARGUMENT without any message being exchanged.", "quantifier": "all argument lists", "why_tests_cant": "Unbounded argument space; absence of communication.", "anchors": ["distributed_vector_ole/spfss_known_index.h:RunValueProviderBatched", "distributed_vector_ole/spfss_known_index.h:RunIndexProviderBatched"]}
{"id": "C19", "title": "The value provider's SPFSS message is masked by the missing leaf", "statement": "Whatever the index provider already knows (all leaves but one), any value share is consistent with the message it receives for exactly one value of the missing leaf: the message alone determines nothing about the value share.", "quantifier": "all shares, vectors and indices", "why_tests_cant": "Information-theoretic statement over all possible secrets.", "anchors": ["distributed_vector_ole/spfss_known_index.h:RunValueProviderBatched"]}
{"id": "C20", "title": "Scalar packing into 128-bit OT messages is lossless", "statement": "For every supported scalar type of at most 16 bytes and any span of at most 16/SizeOf() elements, EMPBlockToSpan(SpanToEMPBlock(v, c)) returns c*v[k] for each k.", "quantifier": "all scalar types (uint8..uint128, gf128, ZZ_p and zz_p with any supported modulus), all spans, all multipliers", "why_tests_cant": "Moduli and values range over 2^128; element widths not dividing 16 are never tested.", "anchors": ["distributed_vector_ole/internal/gilboa_internal.h:SpanToEMPBlock", "distributed_vector_ole/internal/gilboa_internal.h:EMPBlockToSpan", "distributed_vector_ole/internal/scalar_helpers.h:ScalarHelper"]}
{"id": "C21", "title": "Bit decomposition recombines to the scalar", "statement": "For every supported scalar type and value x, the sum of SetBit(j) over the positions j < 8*SizeOf() with GetBit(x,j) set equals x.", "quantifier": "all scalar types, moduli and values", "why_tests_cant": "Values and moduli range over 2^128.", "anchors": ["distributed_vector_ole/internal/gilboa_internal.h:GetBits", "distributed_vector_ole/internal/scalar_helpers.h:GetBit", "distributed_vector_ole/internal/scalar_helpers.h:SetBit", "distributed_vector_ole/internal/ntl_helpers.h:NTLNumBits"]}
{"id": "C22", "title": "Every supported scalar type is a commutative ring with faithful 128-bit conversion", "statement": "For uint8..uint128, gf128 and NTL modular integers: the arithmetic is that of a commutative ring, FromUint128(ToUint128(x)) = x, ToUint128 fits in SizeOf() bytes, and FromUint128 reduces modulo the type's modulus.", "quantifier": "all types, moduli, values", "why_tests_cant": "Unbounded moduli and values.", "anchors": ["distributed_vector_ole/internal/scalar_helpers.h:ScalarHelper", "distributed_vector_ole/internal/scalar_helpers.h:ScalarHelperImpl"]}
{"id": "C23", "title": "Gilboa product shares add up to x*y", "statement": "After RunVectorProvider(y) and RunValueProvider(x, |y|), output_V[i]+output_X[i] = x*y[i] for every i, whether correlated OT or 1-out-of-2 OT is used, and the outputs have the length of y.", "quantifier": "all scalar types of at most 16 bytes, all x, y (any length), all OT randomness, all schedules", "why_tests_cant": "Unbounded lengths, moduli, widths that do not divide 16, and random pads.", "anchors": ["distributed_vector_ole/scalar_vector_gilboa_product.h:RunVectorProvider", "distributed_vector_ole/scalar_vector_gilboa_product.h:RunValueProvider", "distributed_vector_ole/internal/gilboa_internal.h:RunOTSenderCorrelated", "distributed_vector_ole/internal/gilboa_internal.h:RunOTSender1of2"]}
{"id": "C24", "title": "Gilboa argument checks happen before any communication", "statement": "Different lengths of y and output, scalar types longer than 16 bytes and negative y_len are rejected with INVALID_ARGUMENT and no message.", "quantifier": "all arguments", "why_tests_cant": "Unbounded argument space; absence of communication.", "anchors": ["distributed_vector_ole/scalar_vector_gilboa_product.h:RunVectorProvider", "distributed_vector_ole/scalar_vector_gilboa_product.h:RunValueProvider"]}
{"id": "C25", "title": "A Gilboa receiver's selected message hides the vector in the 1-out-of-2 case", "statement": "For any bit chosen and any two vectors y, y', there is a bijection on the sender's random elements under which the selected OT messages are identical; hence the value provider's view is independent of y.", "quantifier": "all vectors, choice bits, random pads", "why_tests_cant": "Information-theoretic, relational.", "anchors": ["distributed_vector_ole/internal/gilboa_internal.h:RunOTSender1of2"]}
{"id": "C26", "title": "CanBeHashedInto with 128-bit hashes bounds the statistical distance", "statement": "If CanBeHashedInto(s, 128) returns true for an NTL modulus, then reducing a uniform 128-bit value modulo the modulus is within statistical distance 2^-s of uniform (for every set of residues).", "quantifier": "all moduli, security parameters, sets of residues", "why_tests_cant": "A statement about distributions over 2^128 values.", "anchors": ["distributed_vector_ole/internal/scalar_helpers.h:CanBeHashedInto"]}
{"id": "C27", "title": "CanBeHashedInto with fewer than 128 hash bits", "statement": "The same guarantee is relied on for hash_bits < 128 (packed correlated OT). The code divides by 2^hash_bits instead of reducing to hash_bits bits, so the guarantee holds for hash_bits=64 but fails for other widths: e.g. every 97- to 120-bit modulus is accepted for 40-bit security, including ones for which the distance is larger than 1/8.", "quantifier": "all moduli and hash widths", "why_tests_cant": "Statement about distributions; a test would have to sample 2^40 values.", "anchors": ["distributed_vector_ole/internal/scalar_helpers.h:CanBeHashedInto", "distributed_vector_ole/scalar_vector_gilboa_product.h:UseCorrelatedOT"]}
{"id": "C28", "title": "Bucket numbers are in range and depend only on the input value", "statement": "CuckooHasher::Hash returns, for each input, num_hash_functions bucket numbers in [0, num_buckets), each depending only on the seed, the 128-bit value of the input, the hash function number and num_buckets; non-positive num_buckets is INVALID_ARGUMENT.", "quantifier": "all inputs, seeds, bucket counts, hash function counts", "why_tests_cant": "Unbounded inputs.", "anchors": ["distributed_vector_ole/cuckoo_hasher.h:Hash", "distributed_vector_ole/cuckoo_hasher.cpp:HashToBucket", "distributed_vector_ole/cuckoo_hasher.h:HashToUint128"]}
{"id": "C29", "title": "HashSimple puts exactly the right indices in every bucket, sorted, for any number of threads", "statement": "Bucket b of HashSimple is the ascending list in which index i occurs once per hash function mapping inputs[i] to b, independent of the number of OpenMP threads and of how the static schedule chunks the loop.", "quantifier": "all inputs, bucket counts, hash counts and all chunkings", "why_tests_cant": "Thread counts and chunkings are environment dependent.", "anchors": ["distributed_vector_ole/cuckoo_hasher.h:HashSimple"]}
{"id": "C30", "title": "A successful HashCuckoo is a perfect placement", "statement": "If HashCuckoo succeeds it returns num_buckets entries in which every input index appears exactly once, in a bucket that is one of its hash values, and all other entries are -1.", "quantifier": "all inputs (with or without duplicates), bucket counts, seeds", "why_tests_cant": "Eviction chains depend on the hash values of all inputs.", "anchors": ["distributed_vector_ole/cuckoo_hasher.h:HashCuckoo"]}
{"id": "C31", "title": "HashCuckoo terminates with a classified outcome", "statement": "HashCuckoo never accesses memory out of bounds; it returns INVALID_ARGUMENT exactly for the documented argument errors and otherwise either a placement or INTERNAL. Two inputs whose first hash values collide are always reported as INTERNAL, however many buckets there are, so whether two inputs can be placed is decided by their first hash values alone, whatever the statistical security.", "quantifier": "all inputs, bucket counts, seeds, hash functions", "why_tests_cant": "Depends on collisions that occur with small probability.", "anchors": ["distributed_vector_ole/cuckoo_hasher.h:HashCuckoo", "distributed_vector_ole/cuckoo_hasher.cpp:GetOptimalNumberOfBuckets"]}
{"id": "C32", "title": "HashSimple and HashCuckoo are consistent", "statement": "If HashCuckoo places index k of `indices` in bucket b, then the value indices[k], if in [0,N), occurs in bucket b of HashSimple applied to 0..N-1 with the same hasher and number of buckets.", "quantifier": "all index lists, N, bucket counts, seeds", "why_tests_cant": "Joint property of two functions over unbounded inputs.", "anchors": ["distributed_vector_ole/cuckoo_hasher.h:HashSimple", "distributed_vector_ole/cuckoo_hasher.h:HashCuckoo"]}
{"id": "C33", "title": "MPFSS (Vector-OLE variant) shares add up to the multi-point function", "statement": "For a correct correlation w = u*x+v and in-range indices, if both RunValueProviderVectorOLE(x) and RunIndexProviderVectorOLE(y, indices) complete, then the two outputs add up, at every position p, to the sum of x*y[i] over all i with indices[i]=p (so x*y[i] at indices[i] for distinct indices and 0 elsewhere).", "quantifier": "all x, y, indices (also repeated), output sizes, correlations, scalar types, hash seeds, GGM randomness, schedules", "why_tests_cant": "Unbounded; depends on hashing, bucket layout and caches.", "anchors": ["distributed_vector_ole/mpfss_known_indices.h:RunValueProviderVectorOLE", "distributed_vector_ole/mpfss_known_indices.h:RunIndexProviderVectorOLE"]}
{"id": "C34", "title": "MPFSS index validation", "statement": "Empty or mismatched y/indices, outputs shorter than indices and indices > |output| are rejected before communicating. The check is off: a negative index is accepted and silently yields the wrong point function, and index = |output| is only noticed (if at all) after a message has been sent. The variants that take no vector OLE always return an unimplemented error.", "quantifier": "all argument lists", "why_tests_cant": "Argument space and silent corruption are not covered by example tests.", "anchors": ["distributed_vector_ole/mpfss_known_indices.h:RunIndexProviderVectorOLE", "distributed_vector_ole/mpfss_known_indices.h:RunValueProvider, RunIndexProvider"]}
{"id": "C35", "title": "The MPFSS bucket cache is coherent for every call history", "statement": "After any sequence of successful or failing UpdateBuckets calls, the cached buckets are those computed from scratch for the cached (output_size, num_indices); a call returns OK iff a fresh computation would, and leaves the cache for exactly its arguments.", "quantifier": "all call histories", "why_tests_cant": "History dependent.", "anchors": ["distributed_vector_ole/mpfss_known_indices.cpp:UpdateBuckets"]}
{"id": "C36", "title": "The MPFSS value provider's view does not depend on y and the indices", "statement": "For any two inputs (y,indices), (y',indices') of the index provider whose cuckoo hashing succeeds, and any correlation, there is a correlation (u',v') for the same (x,w) such that the first index-provider message is identical: the masked message is perfectly hiding.", "quantifier": "all pairs of inputs and correlations", "why_tests_cant": "Relational, information-theoretic.", "anchors": ["distributed_vector_ole/mpfss_known_indices.h:RunIndexProviderVectorOLE"]}
{"id": "C37", "title": "Repeated MPFSS indices are never silently mis-shared as distinct", "statement": "With repeated indices the index provider either fails with INVALID_ARGUMENT `All indices must be unique` (when cuckoo hashing fails) or completes and shares the sum of the repeated values; repeated indices are not always rejected.", "quantifier": "all index lists with repetitions", "why_tests_cant": "Detection depends on hash collisions.", "anchors": ["distributed_vector_ole/mpfss_known_indices.h:RunIndexProviderVectorOLE"]}
{"id": "C38", "title": "AESUniformBitGenerator outputs the AES-CTR key stream", "statement": "For an even buffer size, the n-th output since (re)seeding is word n mod 2 of AES(key, nonce + n/2 mod 2^128), whatever the buffer size, until the reseed limit.", "quantifier": "all seeds, even buffer sizes, output positions", "why_tests_cant": "Key streams are unbounded; refill boundaries depend on buffer size.", "anchors": ["distributed_vector_ole/aes_uniform_bit_generator.cpp:operator()", "distributed_vector_ole/aes_uniform_bit_generator.cpp:Create", "distributed_vector_ole/aes_uniform_bit_generator.cpp:seed"]}
{"id": "C39", "title": "Odd buffer sizes make the generator emit constant zeros", "statement": "Uniform output is relied on for every buffer size; with an odd buffer size b>=3 every b-th output (positions b-1, 2b-1, ...) is the constant 0 for every seed.", "quantifier": "all odd buffer sizes, all seeds", "why_tests_cant": "Tests use the default size; each sample alone looks random.", "anchors": ["distributed_vector_ole/aes_uniform_bit_generator.cpp:AESUniformBitGenerator", "distributed_vector_ole/aes_uniform_bit_generator.cpp:operator()"]}
{"id": "C40", "title": "Reseeding makes the generator forget its history", "statement": "After any sequence of calls (including failed seed() calls and exceptions), seed(s) makes the subsequent outputs equal to those of a freshly created generator with seed s and the same buffer size; seed() with fewer than 32 bytes fails and changes nothing; only the first 32 bytes matter.", "quantifier": "all call histories and seeds", "why_tests_cant": "History dependent.", "anchors": ["distributed_vector_ole/aes_uniform_bit_generator.cpp:seed"]}
{"id": "C41", "title": "The reseed limit", "statement": "The generator throws on the first refill that makes the number of AES calls since seeding exceed 2^48, and not before; but after the exception the next calls return values again (the check is only made on refill).", "quantifier": "all histories and buffer sizes", "why_tests_cant": "Reaching the limit needs 2^48 AES calls.", "anchors": ["distributed_vector_ole/aes_uniform_bit_generator.cpp:operator()", "distributed_vector_ole/aes_uniform_bit_generator.h:kReseedInterval"]}
{"id": "C42", "title": "VOLE correlation holds for every history of calls", "statement": "For every sequence of PrecomputeSender/PrecomputeReceiver and RunSender/RunReceiver calls made by both parties in the same order with the same sizes, whenever a Run call pair completes, w = u*delta + v element-wise and u, v, w have the requested length.", "quantifier": "all call sequences, sizes, batch sizes, deltas, scalar types, all randomness of both parties, all message schedules", "why_tests_cant": "History, randomness and schedule dependent; expansions of more than 10^6 elements.", "anchors": ["distributed_vector_ole/distributed_vector_ole.h:RunSender", "distributed_vector_ole/distributed_vector_ole.h:RunReceiver", "distributed_vector_ole/distributed_vector_ole.h:ExpandSender", "distributed_vector_ole/distributed_vector_ole.h:ExpandReceiver", "distributed_vector_ole/distributed_vector_ole.h:PrecomputeSender", "distributed_vector_ole/distributed_vector_ole.h:PrecomputeReceiver"]}
{"id": "C43", "title": "delta stays fixed until the next PrecomputeReceiver", "statement": "RunReceiver always returns the delta of the latest PrecomputeReceiver (or the implicitly drawn one), for any number of Run calls and expansions in between.", "quantifier": "all call histories", "why_tests_cant": "History dependent.", "anchors": ["distributed_vector_ole/distributed_vector_ole.h:RunReceiver", "distributed_vector_ole/distributed_vector_ole.h:GetReceiverCached"]}
{"id": "C44", "title": "No VOLE element is used twice", "statement": "Across any history, every element produced by an expansion is used at most once: as part of one Run result, or as a seed of one later expansion, or it is still cached. In particular seeds never appear in outputs.", "quantifier": "all call histories", "why_tests_cant": "Linear-resource property over histories.", "anchors": ["distributed_vector_ole/distributed_vector_ole.h:GetSenderCached", "distributed_vector_ole/distributed_vector_ole.h:ExpandSender", "distributed_vector_ole/distributed_vector_ole.h:RunSender"]}
{"id": "C45", "title": "Sender and receiver stay in lock step", "statement": "With the same call sequence both parties exchange messages in matching order and with matching sizes: no schedule leads to a deadlock, to a message being misinterpreted, or to left-over messages, unless one party returned an error.", "quantifier": "all call sequences and interleavings", "why_tests_cant": "Interleavings and histories.", "anchors": ["distributed_vector_ole/distributed_vector_ole.h", "distributed_vector_ole/mpfss_known_indices.h", "distributed_vector_ole/spfss_known_index.h", "distributed_vector_ole/all_but_one_random_ot.h", "distributed_vector_ole/scalar_vector_gilboa_product.h"]}
{"id": "C46", "title": "Results do not depend on the message schedule", "statement": "For two parties with fixed inputs and randomness connected by FIFO channels, all interleavings terminate after the same number of steps with the same outputs.", "quantifier": "all interleavings of any two protocol programs of the library", "why_tests_cant": "Schedules cannot be enumerated.", "anchors": ["mpc_utils::comm_channel use in distributed_vector_ole/*.h"]}
{"id": "C47", "title": "RunSender/RunReceiver make progress", "statement": "After successful precomputation each expansion adds exactly batch_size_ >= 1 elements to the cache, so Run(size) performs exactly ceil((size - cached)/batch) expansions and leaves cached + expansions*batch - size elements.", "quantifier": "all sizes, batch sizes and cache states", "why_tests_cant": "Termination for all sizes.", "anchors": ["distributed_vector_ole/distributed_vector_ole.h:RunSender", "distributed_vector_ole/distributed_vector_ole.h:ExpandSender", "distributed_vector_ole/distributed_vector_ole.cpp:VOLEParameters"]}
{"id": "C48", "title": "Both parties compute the same code generator", "statement": "The code generator depends only on the exchanged seed, the dimensions and the platform's evaluation order of MakeUint128(rng(), rng()); element k comes from random numbers 2k and 2k+1 and is used only in its own column, in the row drawn for it; all row indices are in range and each column has between 1 and 10 nonzero positions. If the parties' compilers evaluate the two rng() arguments in different orders, they compute different generators.", "quantifier": "all seeds, sizes; both evaluation orders", "why_tests_cant": "Needs two differently compiled binaries.", "anchors": ["distributed_vector_ole/distributed_vector_ole.h:PrecomputeCommon"]}
{"id": "C49", "title": "Argument handling of the VOLE generator", "statement": "Non-positive batch sizes are INVALID_ARGUMENT with no state change and no message; RunSender(0) after precomputation returns empty vectors; but a negative size after precomputation is not rejected and is undefined behaviour (negative Eigen segment).", "quantifier": "all sizes and states", "why_tests_cant": "State dependent.", "anchors": ["distributed_vector_ole/distributed_vector_ole.h:RunSender", "distributed_vector_ole/distributed_vector_ole.h:GetSenderCached", "distributed_vector_ole/distributed_vector_ole.h:PrecomputeSender"]}
{"id": "C50", "title": "A failed re-precomputation must not produce insecure output", "statement": "Users rely on a failed Precompute* not being followed by successful Run* calls with a degenerate code. The code violates this: if a second Precompute fails its statistical security check in the last step, the old `done` flag survives and Run* expands with an all-zero code generator, so u is zero outside the noise positions.", "quantifier": "all histories with a failing precomputation", "why_tests_cant": "Needs a rare failing history.", "anchors": ["distributed_vector_ole/distributed_vector_ole.h:PrecomputeCommon", "distributed_vector_ole/distributed_vector_ole.h:PrecomputeSender", "distributed_vector_ole/distributed_vector_ole.h:RunSender"]}
{"id": "C51", "title": "NTLNumBits is correct across modulus changes", "statement": "For any sequence of modulus changes and calls on a thread, NTLNumBits<ZZ_p>() returns the bit length of the currently installed modulus minus one.", "quantifier": "all histories of modulus changes", "why_tests_cant": "History dependent cache.", "anchors": ["distributed_vector_ole/internal/ntl_helpers.cpp:NTLNumBitsCached"]}
{"id": "C52", "title": "Parallel loops give the sequential result under every schedule, without data races", "statement": "The parallel loops of the library (hash table, tree creation, tree reconstruction, conversion of leaves, share summation in both roles, bucket search) finish without a data race and leave in memory exactly what the sequential loop leaves, however the iterations are divided among threads and however the threads are interleaved; elements outside the output spans are not touched, and every thread works with the modulus of the calling thread. The output spans must not overlap.", "quantifier": "all inputs, all divisions of the iterations among any number of threads, all interleavings of memory accesses and of calls of the random generator", "why_tests_cant": "The division and the interleaving are up to the OpenMP runtime and the scheduler; a run shows one of them.", "anchors": ["distributed_vector_ole/all_but_one_random_ot.h:RunSenderBatched", "distributed_vector_ole/spfss_known_index.h:RunValueProviderBatched", "distributed_vector_ole/cuckoo_hasher.h:Hash", "distributed_vector_ole/mpfss_known_indices.h:RunIndexProviderVectorOLE"]}
{"id": "C53", "title": "Integer promotion of 16-bit scalars", "statement": "Scalar arithmetic on uint16_t must be free of undefined behaviour. The Gilboa packing multiplies only by powers of two up to 2^15 and never overflows int; the general product x*y used in MPFSS and in the expansion can overflow int (undefined behaviour) for uint16_t, and cannot for the other unsigned widths.", "quantifier": "all pairs of values", "why_tests_cant": "Undefined behaviour usually goes unnoticed at run time.", "anchors": ["distributed_vector_ole/internal/gilboa_internal.h:SpanToEMPBlock", "distributed_vector_ole/mpfss_known_indices.h:RunValueProviderVectorOLE", "distributed_vector_ole/distributed_vector_ole.h:ExpandSender"]}
{"id": "C54", "title": "Signed integer scalars are corrupted by packing", "statement": "ScalarHelper accepts every integer type; lossless packing is relied on for all of them. For signed types a negative element sign-extends into the higher elements of the same OT message, so packing is lossless only when no element below the top one is negative.", "quantifier": "all spans of signed integers", "why_tests_cant": "Tests use unsigned types only.", "anchors": ["distributed_vector_ole/internal/scalar_helpers.h:ToUint128", "distributed_vector_ole/internal/gilboa_internal.h:SpanToEMPBlock"]}
{"id": "C55", "title": "The leaf count used in the random-OT security check is exact up to 2^31", "statement": "The statistical security check of RunSenderBatched uses the total number of leaves; it is computed in a 32-bit int, so it is exact for totals below 2^31 and wraps otherwise, in which case the check can pass although the security condition is violated.", "quantifier": "all size lists", "why_tests_cant": "Needs billions of leaves.", "anchors": ["distributed_vector_ole/all_but_one_random_ot.h:SendTrees"]}
{"id": "C56", "title": "The Gilboa value provider's length limits are exact", "statement": "RunValueProvider computes the number of OTs in int: it is free of undefined behaviour exactly while 8*SizeOf*ceil(len/(16/SizeOf)) and len + 16/SizeOf stay below 2^31 (for 16-byte scalars: fewer than 2^24 elements); beyond that it overflows a signed int before anything is sent, although the vector provider uses 64-bit arithmetic.", "quantifier": "all lengths below 2^31 and all scalar types", "why_tests_cant": "Needs vectors of tens of millions of elements; overflow is usually silent.", "anchors": ["distributed_vector_ole/scalar_vector_gilboa_product.h:RunValueProvider"]}
{"id": "C57", "title": "Number of buckets: argument handling", "statement": "GetOptimalNumberOfBuckets returns INVALID_ARGUMENT for a negative number of inputs, 1 for no inputs, and UNIMPLEMENTED whenever the hasher was created with a number of hash functions other than 2 or 3.", "quantifier": "all numbers of inputs and hash functions", "why_tests_cant": "Tests sample a few values.", "anchors": ["distributed_vector_ole/cuckoo_hasher.cpp:GetOptimalNumberOfBuckets"]}
{"id": "C58", "title": "The receiving side of the oblivious transfers reveals only how many there are", "statement": "Everything another party, honest or not, can notice of the random-OT receiver, the SPFSS index provider and the Gilboa value provider is how many OTs of which kind they receive: they send no message, and the number depends only on the sizes, not on the indices, value shares or multiplier.", "quantifier": "all inputs, all behaviours of the other party, every point of the execution", "why_tests_cant": "Quantifies over arbitrary peers and pairs of inputs.", "anchors": ["distributed_vector_ole/all_but_one_random_ot.h:RunReceiverBatched", "distributed_vector_ole/spfss_known_index.h:RunIndexProviderBatched", "distributed_vector_ole/scalar_vector_gilboa_product.h:RunValueProvider"]}
{"id": "C59", "title": "MPFSS Create gives both parties the same hash functions", "statement": "When two parties with different ids call MPFSSKnownIndices::Create on one channel with non-negative security, both return objects using the same three hash functions, under every schedule; with equal ids both wait for ever; negative security is rejected before communicating.", "quantifier": "all ids, random choices and schedules", "why_tests_cant": "Schedules and deadlocks.", "anchors": ["distributed_vector_ole/mpfss_known_indices.cpp:Create"]}
{"id": "C60", "title": "RunReceiver after a failed RunReceiver", "statement": "RunReceiver returns, with OK, only elements that were computed. (This does not hold: a RunReceiver that fails during an expansion leaves as many uninitialised elements in the cache as the expansion would have produced, and later RunReceiver calls hand them out with OK, without any communication.)", "quantifier": "all histories of calls on a receiver, all messages of the other party, all contents of uninitialised memory", "why_tests_cant": "Failures are rare, and uninitialised memory looks like data in any particular run.", "anchors": ["distributed_vector_ole/distributed_vector_ole.h:ExpandReceiver", "distributed_vector_ole/distributed_vector_ole.h:RunReceiver", "distributed_vector_ole/distributed_vector_ole.h:GetReceiverCached"]}
{"id": "C61", "title": "One object in both roles", "statement": "An object that has precomputed successfully as sender and as receiver can run in both roles. (This does not hold: there is a single code generator, and a Run in the role whose seed size differs from that of the latest precomputation fails with INTERNAL as soon as it needs an expansion; nothing is sent.)", "quantifier": "all settings, sizes, histories with precomputations in both roles, and sizes of the next Run; a session of two honest parties as witness", "why_tests_cant": "Ranges over interleavings of calls in two roles and over parameter levels.", "anchors": ["distributed_vector_ole/distributed_vector_ole.h:PrecomputeCommon", "distributed_vector_ole/distributed_vector_ole.h:ExpandSender", "distributed_vector_ole/distributed_vector_ole.h:ExpandReceiver"]}
{"id": "C62", "title": "Retrying a failed RunSender", "statement": "A RunSender that fails has no effect, so that it can be called again. (This does not hold: it discards all cached elements; when the failure is one the other party does not notice, such as a failed cuckoo insertion, a second call succeeds on both sides but the outputs are not correlated.)", "quantifier": "all histories ending in a failed RunSender; a session of two honest parties as witness", "why_tests_cant": "Cuckoo insertion fails with negligible probability in tests.", "anchors": ["distributed_vector_ole/distributed_vector_ole.h:RunSender", "distributed_vector_ole/distributed_vector_ole.h:ExpandSender"]}
{"id": "C63", "title": "Requests covered by the cache are local", "statement": "RunSender(n) and RunReceiver(n), with at least n elements cached from earlier calls, send and receive nothing, draw no randomness, cannot fail, and return and remove exactly the last n cached elements, leaving the rest of the object as it was.", "quantifier": "all states, all n from 0 to the number of cached elements", "why_tests_cant": "Absence of communication and failure for every state.", "anchors": ["distributed_vector_ole/distributed_vector_ole.h:RunSender", "distributed_vector_ole/distributed_vector_ole.h:RunReceiver", "distributed_vector_ole/distributed_vector_ole.h:GetSenderCached", "distributed_vector_ole/distributed_vector_ole.h:GetReceiverCached"]}
{"id": "C64", "title": "The code generator is close to uniform", "statement": "Precompute* succeeds only if the scalar type can be hashed into with the requested statistical security: after a successful precomputation with n code elements, each element is within 1/(3 n 2^s) of the uniform distribution, so that the distances of all elements sum up to less than a third of 2^-s (C94 is about the joint distribution).", "quantifier": "all scalar types, settings, histories with a successful precomputation, all events", "why_tests_cant": "A statistical bound over all moduli and sizes.", "anchors": ["distributed_vector_ole/distributed_vector_ole.h:PrecomputeCommon", "distributed_vector_ole/internal/scalar_helpers.h:CanBeHashedInto"]}
{"id": "C65", "title": "PrecomputeReceiver without delta draws delta at random", "statement": "PrecomputeReceiver(batch_size) draws one random scalar and then behaves exactly as PrecomputeReceiver(batch_size, delta) with that scalar.", "quantifier": "all states, batch sizes and random values", "why_tests_cant": "Equality of behaviours against every other party.", "anchors": ["distributed_vector_ole/distributed_vector_ole.h:PrecomputeReceiver"]}
{"id": "C66", "title": "Run without precomputation precomputes", "statement": "RunSender(n) and RunReceiver(n) on an object that has not precomputed in that role behave exactly like Precompute*(n) followed, if it succeeds, by the same Run: same messages, same reactions, same results. This also holds after precomputations that failed.", "quantifier": "all states without precomputation, all n, all messages and random values", "why_tests_cant": "Equality of behaviours against every other party.", "anchors": ["distributed_vector_ole/distributed_vector_ole.h:RunSender", "distributed_vector_ole/distributed_vector_ole.h:RunReceiver"]}
{"id": "C67", "title": "Every new element of u is a codeword plus fresh noise", "statement": "RunSender(n) beyond the cached elements returns the cached elements followed by elements of expansions: each expansion is the old seed times the code generator, plus exactly num_noise values drawn at random for this expansion, at pairwise different positions drawn at random for this expansion; no other coordinate is changed, and seeds and outputs partition the expansion.", "quantifier": "all histories after a successful precomputation, all n, all random values, whatever the other party sends", "why_tests_cant": "Tests of the correlation pass with zero or repeated noise.", "anchors": ["distributed_vector_ole/distributed_vector_ole.h:ExpandSender", "distributed_vector_ole/distributed_vector_ole.h:RunSender"]}
{"id": "C68", "title": "The first seed of the sender is random", "statement": "The first correlations that PrecomputeSender makes are scalars drawn at random for this call: one for every element of u and another one for every element of v.", "quantifier": "all histories, batch sizes, random values", "why_tests_cant": "Tests of the correlation pass with constant seeds.", "anchors": ["distributed_vector_ole/distributed_vector_ole.h:PrecomputeSender"]}
{"id": "C69", "title": "Orderly sessions succeed", "statement": "With a scalar type that admits the requested statistical security, a session in which all sizes are positive, and in which the parties precompute again whenever they exchange roles, has no errors: every pair of calls succeeds with the agreed results, unless a random generator is used up or the sender of a call fails alone because it cannot insert an index during cuckoo hashing or finds no new random indices. Unsigned integers and gf128 always admit the security, integers modulo p do if p times the security is small enough.", "quantifier": "all scalar types, settings, lists of calls, random tapes, schedules", "why_tests_cant": "Absence of errors over all sessions and schedules.", "anchors": ["distributed_vector_ole/distributed_vector_ole.h:RunSender", "distributed_vector_ole/distributed_vector_ole.h:RunReceiver", "distributed_vector_ole/distributed_vector_ole.h:PrecomputeSender", "distributed_vector_ole/distributed_vector_ole.h:PrecomputeReceiver"]}
{"id": "C70", "title": "The number of tree levels computed with doubles is sufficient", "statement": "1 + ceil(log(n) / log(arity)), computed with doubles, gives enough levels for n leaves and at most one more than necessary, so that GGMTree::Create succeeds; the comparison with pow when a tree is reconstructed is exact; every size up to 2^31 is supported by the protocols.", "quantifier": "all arities up to 2^31, all n up to 2^42, all log and pow functions with an error of less than one unit in the last place", "why_tests_cant": "Rounding errors of a quotient of logarithms show up at isolated sizes, e.g. powers of the arity.", "anchors": ["distributed_vector_ole/ggm_tree.cpp:GGMTree::Create", "distributed_vector_ole/ggm_tree.cpp:CreateFromSiblingWiseXOR", "distributed_vector_ole/all_but_one_random_ot.cpp:ReceiveTrees"]}
{"id": "C71", "title": "The statistical-security checks computed with doubles are sound", "statement": "If CanBeHashedInto accepts with the statistical security per element that the protocols compute (log2(total) + s, in doubles), then all total elements together are within 2^-s of uniform, up to a factor of 2^(2^-39); types with order * total * 2^s below 2^128 (up to that factor) are accepted; totals that became negative by overflow are rejected; DistributedVectorOLE::Create passes on s + log2(3), and one more bit to the hasher.", "quantifier": "all scalar types, all securities up to 512 bits, all totals, all log2 functions with an error of less than one unit in the last place", "why_tests_cant": "The bound is about probabilities and about all rounding errors; tests see accept or reject only.", "anchors": ["distributed_vector_ole/internal/scalar_helpers.h:CanBeHashedInto", "distributed_vector_ole/all_but_one_random_ot.h:SendTrees", "distributed_vector_ole/scalar_vector_gilboa_product.h:UseCorrelatedOT", "distributed_vector_ole/distributed_vector_ole.h:Create"]}
{"id": "C72", "title": "The hash length check of the cuckoo hasher is sound", "statement": "If HashSimple or HashCuckoo succeeds, then for uniform 128-bit hash values the bucket numbers of all inputs under all hash functions together are within 2^-s of uniform, up to a factor of 2^(2^-39). HashSimple accepts all calls with inputs * hash functions * buckets below 2^(128 - s) and rejects those above, up to that factor.", "quantifier": "all inputs, numbers of buckets and hash functions, all securities up to 512 bits, all accurate log2 functions", "why_tests_cant": "Statement about a distribution over 2^128 hash values and about rounding.", "anchors": ["distributed_vector_ole/cuckoo_hasher.h:HashSimple", "distributed_vector_ole/cuckoo_hasher.h:HashCuckoo"]}
{"id": "C73", "title": "GetOptimalNumberOfBuckets with three hash functions returns at least as many buckets as inputs", "statement": "For securities between 12 and 512 bits and up to 2^48 inputs, GetOptimalNumberOfBuckets returns between n and 2^14 n buckets, and at most 16 n for 64 <= n < 4096; the conversion to int64_t is defined.", "quantifier": "all numbers of inputs below 2^48, all securities from 12 to 512 bits, all accurate log2, sqrt and erf functions", "why_tests_cant": "A formula with erf, evaluated with rounding, at 2^48 arguments.", "anchors": ["distributed_vector_ole/cuckoo_hasher.cpp:GetOptimalNumberOfBuckets"]}
{"id": "C74", "title": "GetOptimalNumberOfBuckets with two hash functions ends, for moderate security", "statement": "With two hash functions and s <= 3.3 k - 1.3, the search ends after at most 2^k rounds and returns between n and 2^k n buckets (k <= 50). For s >= 225 it never ends (refuted in general).", "quantifier": "all numbers of inputs below 2^48, all securities, all accurate log2 and pow functions", "why_tests_cant": "Non-termination and the number of rounds cannot be observed by tests.", "anchors": ["distributed_vector_ole/cuckoo_hasher.cpp:GetOptimalNumberOfBuckets"]}
{"id": "C75", "title": "The library's parameters work in double arithmetic", "statement": "For scalar types of at most 16 bytes and securities from 12 to 80 bits, the library's parameters together with the tree levels, bucket numbers and checks computed with doubles meet all conditions under which the Vector-OLE properties (C38-C51, C58-C69) are proved.", "quantifier": "all scalar types, all securities from 12 to 80 bits, all accurate log, log2, sqrt, erf functions", "why_tests_cant": "The conditions range over all sizes and all roundings.", "anchors": ["distributed_vector_ole/distributed_vector_ole.cpp", "distributed_vector_ole/distributed_vector_ole.h:Create", "distributed_vector_ole/mpfss_known_indices.cpp:Create"]}
{"id": "C76", "title": "Which statistical securities Create accepts, and where they go", "statement": "DistributedVectorOLE::Create returns INVALID_ARGUMENT for a null channel and for a negative statistical security (including minus infinity), and its components never reject a security that Create has accepted. The generator and the Gilboa product get the same security, the random OTs and the hasher the same, one bit more. NaN is accepted (refuted: only sensible securities are accepted), and then the hasher accepts every number of buckets; CuckooHasher::Create accepts negative securities.", "quantifier": "all doubles including infinities and NaN, all log2 functions with an error below one ulp", "why_tests_cant": "Tests try one negative value; the components see values after two rounded additions.", "anchors": ["distributed_vector_ole/distributed_vector_ole.h:Create", "distributed_vector_ole/mpfss_known_indices.cpp:MPFSSKnownIndices::Create", "distributed_vector_ole/spfss_known_index.cpp:SPFSSKnownIndex::Create", "distributed_vector_ole/all_but_one_random_ot.cpp:AllButOneRandomOT::Create", "distributed_vector_ole/scalar_vector_gilboa_product.cpp:ScalarVectorGilboaProduct::Create", "distributed_vector_ole/cuckoo_hasher.cpp:CuckooHasher::Create"]}
{"id": "C77", "title": "Lengths and order of messages do not depend on secrets", "statement": "A party that makes calls on a DistributedVectorOLE object sends and receives messages of the same kinds, lengths and order, and takes part in oblivious transfers of the same numbers, as in every other execution with calls of the same sizes in the same roles and the same hash seed (which is public). Nothing depends on delta, on whether it was given or drawn, on the party's random values, or on what the other party sends, except that an execution that fails stops earlier. The same holds for single Gilboa products, single-point and multi-point functions: the steps depend on lengths only.", "quantifier": "all scalar types, all settings and machines, all lists of calls, all deltas, all random values, all messages of an arbitrary other party, executions stopped anywhere", "why_tests_cant": "Two runs with the same lengths show nothing about all other secrets, random values and peers.", "anchors": ["distributed_vector_ole/distributed_vector_ole.h:RunSender", "distributed_vector_ole/distributed_vector_ole.h:RunReceiver", "distributed_vector_ole/distributed_vector_ole.h:PrecomputeSender", "distributed_vector_ole/distributed_vector_ole.h:PrecomputeReceiver", "distributed_vector_ole/scalar_vector_gilboa_product.h", "distributed_vector_ole/spfss_known_index.h", "distributed_vector_ole/mpfss_known_indices.h"]}
{"id": "C78", "title": "Amount of communication", "statement": "Successful calls communicate exactly as much as the parameters say. A Gilboa product is one batch of oblivious transfers, one for each bit of each packed element. A batch of single-point functions is one batch of oblivious transfers, one for each tree level (none for empty outputs), two blocks of keys for the whole batch and one scalar per function. Precomputation for batches of b is one Gilboa product and one vector for the first seeds, then for each level below the first with enough room a 32-byte seed and one expansion just large enough for the next seeds, and one more 32-byte seed. Run(n) is one round per missing batch and nothing else: one vector as long as the number of buckets, and single-point functions whose sizes sum to three times the expansion. Nothing is sent while the cache is large enough.", "quantifier": "all scalar types, settings and machines, all histories of calls before, all batch sizes and sizes, all random values and messages of the other party, all hash functions", "why_tests_cant": "A measured run has one set of parameters, one history and one hash function.", "anchors": ["distributed_vector_ole/distributed_vector_ole.h:RunSender", "distributed_vector_ole/distributed_vector_ole.h:RunReceiver", "distributed_vector_ole/distributed_vector_ole.h:PrecomputeSender", "distributed_vector_ole/distributed_vector_ole.h:PrecomputeReceiver", "distributed_vector_ole/scalar_vector_gilboa_product.h", "distributed_vector_ole/spfss_known_index.h", "distributed_vector_ole/mpfss_known_indices.h"]}
{"id": "C79", "title": "Peers that send arbitrary contents", "statement": "As long as the messages of the peer have the expected kinds and numbers of elements, no call shows undefined behaviour because of them, whatever they contain and whatever comes out of the oblivious transfers: Precompute after any history, the first Run on a new object, and Run after a precomputation and any successful or failed further Run calls either return a status or values; what remains is a random generator that runs dry, a sum of sizes that overflows or endless sampling. A call never waits for more messages than expected and takes all of them if it succeeds. Single-point functions and Gilboa products have no undefined behaviour at all. The lengths of vectors are not checked: one element too few leads to accesses outside of vectors in the sender and to failed assertions in the receiver.", "quantifier": "all scalar types, settings and machines, all histories, batch sizes and sizes, all message contents, all results of oblivious transfers, all random values", "why_tests_cant": "Tests run against the honest implementation of the peer.", "anchors": ["distributed_vector_ole/distributed_vector_ole.h:RunSender", "distributed_vector_ole/distributed_vector_ole.h:RunReceiver", "distributed_vector_ole/distributed_vector_ole.h:PrecomputeSender", "distributed_vector_ole/distributed_vector_ole.h:PrecomputeReceiver", "distributed_vector_ole/spfss_known_index.h", "distributed_vector_ole/mpfss_known_indices.h", "distributed_vector_ole/all_but_one_random_ot.h", "distributed_vector_ole/scalar_vector_gilboa_product.h"]}
{"id": "C80", "title": "Connections and buffers do not matter", "statement": "A session ends in the same way, with the same results, whether oblivious transfers run on a connection of their own or share the channel, and whatever the connections can hold: a send that blocks until the other party reads never leads to a deadlock, even if the connections hold nothing but the single token of a synchronisation, and even if the transport stored any number of messages before. This holds for every session of two Vector-OLE generators with the same calls in opposite roles, including those in which one party fails, and for all-but-one random OT, single-point and multi-point functions, Gilboa products and the creation of multi-point objects used on their own. It is not a property of all protocols: two parties that send at the same time and then receive do deadlock on connections without buffers.", "quantifier": "all scalar types, settings, machines, sessions, inputs and random values; all schedules; all decisions of the transport which messages to store; shared and separate connections", "why_tests_cant": "Tests run over one kind of connection, with messages that fit the buffers of the operating system, and on a few schedules.", "anchors": ["distributed_vector_ole/all_but_one_random_ot.cpp:AllButOneRandomOT::Create", "distributed_vector_ole/scalar_vector_gilboa_product.cpp:ScalarVectorGilboaProduct::Create", "distributed_vector_ole/all_but_one_random_ot.h:SendTrees", "distributed_vector_ole/spfss_known_index.h", "distributed_vector_ole/mpfss_known_indices.h", "distributed_vector_ole/distributed_vector_ole.h"]}
{"id": "C81", "title": "What the value provider of a Gilboa product learns", "statement": "When a Gilboa product uses correlated oblivious transfers, the messages a value provider receives tell it, whatever choice bits it uses and whatever it computes from the messages, two vectors of the same length apart with an advantage of at most bits * length * (2^bits mod order) / 2^bits, where bits is the size of an element in memory. So nothing is learnt with unsigned integers, gf128, and elements with 2^bits <= length * 2^statistical_security; and with elements of 8 or 16 bytes the advantage is below 8 * SizeOf / 2^statistical_security. It is not below 2^-statistical_security, as the security parameter promises: the check that allows correlated OTs counts elements instead of transfers, and 39 times as much is reached with a 64-bit modulus; and for sizes between 8 and 16 bytes it reduces the wrong power of two, so that a quarter is reached with a 104-bit modulus.", "quantifier": "all scalar types of at most 16 bytes, statistical securities, lengths, pairs of vectors, choice bits (honest or not) and tests of the received messages; probabilities over all random blocks of the vector provider", "why_tests_cant": "An advantage is a statement about all random values; a test sees a few samples and cannot notice a difference of 2^-34.", "anchors": ["distributed_vector_ole/scalar_vector_gilboa_product.h:ScalarVectorGilboaProduct::RunVectorProvider", "distributed_vector_ole/scalar_vector_gilboa_product.h:ScalarVectorGilboaProduct::UseCorrelatedOT", "distributed_vector_ole/internal/scalar_helpers.h:ScalarHelper::CanBeHashedInto"]}
{"id": "C82", "title": "The missing elements of an all-but-one random OT stay unknown", "statement": "In a batch of all-but-one random OTs between two parties that follow the protocol, everything the receiver gets (all messages, all results of oblivious transfers, its own random values) is explained by every value of the missing elements: for any values there is a run with exactly the same view and result of the receiver in which the sender's output has these values at the missing positions and is otherwise the same.", "quantifier": "all scalar types, batches of sizes (empty and single-element ones too), indices, tapes, and all values of the missing elements; block ciphers whose two keys differ and for which no other inner node of the batch equals the node above a missing leaf", "why_tests_cant": "It is a statement about all runs that look alike to one party; a test compares one run with itself and cannot show that another secret would have looked the same.", "anchors": ["distributed_vector_ole/all_but_one_random_ot.h:AllButOneRandomOT::RunSenderBatched", "distributed_vector_ole/all_but_one_random_ot.cpp:AllButOneRandomOT::ReceiveTrees", "distributed_vector_ole/ggm_tree.cpp:GGMTree::Create"]}
{"id": "C83", "title": "The value share of a point function stays unknown to the index provider", "statement": "When two parties that follow the protocol secret-share point functions, everything the index provider gets is explained by all other value shares of the value provider, with the same result of the index provider, as long as the shares agree at empty outputs. For an empty output the value share itself is sent in the clear.", "quantifier": "all scalar types of at most 16 bytes, batches, indices, shares, tapes; block ciphers as in C82", "why_tests_cant": "It is a statement about all runs that look alike to one party; a test compares one run with itself and cannot show that another secret would have looked the same.", "anchors": ["distributed_vector_ole/spfss_known_index.h:SPFSSKnownIndex::RunValueProviderBatched", "distributed_vector_ole/spfss_known_index.h:SPFSSKnownIndex::RunIndexProviderBatched"]}
{"id": "C84", "title": "The value provider's factor stays unknown to the index provider of a multi-point function", "statement": "When two parties that follow the protocol secret-share a multi-point function with values x * y[k], everything the index provider gets is explained by every other factor x' of the value provider with the VOLE correlation that belongs to it, with the same result and the same state of the index provider. Empty buckets reveal nothing, unlike empty outputs in C83.", "quantifier": "all scalar types of at most 16 bytes, sizes, histories of both objects, divisions among threads, y, indices, VOLE correlations, tapes; block ciphers as in C82 where the hasher's key differs from the two tree keys", "why_tests_cant": "It is a statement about all runs that look alike to one party; a test compares one run with itself and cannot show that another secret would have looked the same.", "anchors": ["distributed_vector_ole/mpfss_known_indices.h:MPFSSKnownIndices::RunValueProviderVectorOLE", "distributed_vector_ole/mpfss_known_indices.h:MPFSSKnownIndices::RunIndexProviderVectorOLE"]}
{"id": "C85", "title": "Random elements are uniform, unless the random bytes fail or are too many", "statement": "For integers and gf128, filling a span (or one gf128) with random elements turns uniform random bytes into uniform elements: every vector is the result for exactly one string of random bytes, whatever the span contained, if it has fewer than 2^31 bytes. The full property is refuted in two ways: the number of bytes is converted to int, so spans of 2^31 to 2^32 bytes keep their old contents; and a failure of the random generator is not reported, random_element() then returns zero.", "quantifier": "all integer widths and gf128, all spans and old contents, all random bytes, failing generators", "why_tests_cant": "Uniformity is a statement about all byte strings, long spans take gigabytes, and a failing random generator does not occur in tests.", "anchors": ["distributed_vector_ole/internal/scalar_helpers.h:ScalarHelper::Randomize", "distributed_vector_ole/gf128.cpp:gf128::randomize", "distributed_vector_ole/gf128.cpp:gf128::random_element"]}
{"id": "C86", "title": "gf128 elements can be hashed, archived and printed faithfully", "statement": "Equal gf128 elements have equal hashes, which equal those of the same absl::uint128; different elements feed different words to the hash. Any sequence of elements saved to an archive is loaded back unchanged into any objects, leaving the rest of the archive; an array of another length replaces the first words only or, if it is longer, is an error. The printed text is gf128( ) around the canonical decimal number, and different elements print differently.", "quantifier": "all elements, hash functions and hash states, sequences, target objects and archives", "why_tests_cant": "Injectivity and round trips range over 2^128 elements and all sequences.", "anchors": ["distributed_vector_ole/gf128.h:gf128::serialize", "distributed_vector_ole/gf128.h:AbslHashValue", "distributed_vector_ole/gf128.cpp:operator<<"]}
{"id": "C87", "title": "Conversions to NTL::ZZ_p do not disturb each other", "statement": "Whatever a thread and other threads have converted before, converting a 128-bit number to NTL::ZZ_p gives the number modulo the modulus the thread last installed; the temporary variable kept by each thread does not influence results.", "quantifier": "all histories of installed moduli and conversions on any number of threads, all numbers below 2^128", "why_tests_cant": "The result must not depend on what earlier calls left in a hidden variable, for every history and interleaving.", "anchors": ["distributed_vector_ole/internal/ntl_helpers.cpp:NTLTemp", "distributed_vector_ole/internal/scalar_helpers.h:ScalarHelperImpl<NTL::ZZ_p>::FromUint128"]}
{"id": "C88", "title": "The sender cannot tell the receiver's delta after a whole session", "statement": "When sender and receiver have created their objects and made any sequence of calls that all succeeded, everything the sender saw (messages, results of oblivious transfers, its random values) and got is equally explained by every other delta of the receiver, whether given or drawn at random: there are a block cipher, changed only under keys the receiver drew, and random values of the receiver with which the sender sees exactly the same while the receiver uses the other deltas and gets shares that fit them.", "quantifier": "all scalar types, sessions (any number and order of precomputations and runs), schedules, random values without accidental repetitions, and all other deltas", "why_tests_cant": "Secrecy compares two executions for every possible secret; a test sees one execution and cannot show that another delta would look the same.", "anchors": ["distributed_vector_ole/distributed_vector_ole.h:DistributedVectorOLE::PrecomputeReceiver", "distributed_vector_ole/distributed_vector_ole.h:DistributedVectorOLE::RunReceiver", "distributed_vector_ole/distributed_vector_ole.h:DistributedVectorOLE::RunSender", "distributed_vector_ole/mpfss_known_indices.h:MPFSSKnownIndices", "distributed_vector_ole/scalar_vector_gilboa_product.h:ScalarVectorGilboaProduct"]}
{"id": "C89", "title": "Drawn positions and rows are uniform and independent", "statement": "With the std::uniform_int_distribution of libstdc++ (the versions up to and from GCC 11), the noise positions of every expansion and the rows of the code generator are read, in order and without gaps, from AES in counter mode under a fresh seed, by a rule in which every number below the bound has equally many 64-bit words: if the words are independent and uniform, so are the numbers, and every set of noise positions of the right size is equally likely.", "quantifier": "both versions of the library function, all seeds, bounds up to 2^63, even buffer sizes, all histories of calls and schedules", "why_tests_cant": "Uniformity is a statement about all 2^64 words and all streams; statistical tests on samples cannot exclude bias, gaps or reused words.", "anchors": ["distributed_vector_ole/distributed_vector_ole.h:DistributedVectorOLE::RunSender", "distributed_vector_ole/distributed_vector_ole.h:DistributedVectorOLE::PrecomputeSender", "distributed_vector_ole/distributed_vector_ole.h:DistributedVectorOLE::PrecomputeReceiver", "distributed_vector_ole/aes_uniform_bit_generator.cpp:AESUniformBitGenerator::operator()", "distributed_vector_ole/aes_uniform_bit_generator.cpp:AESUniformBitGenerator::Create"]}
{"id": "C90", "title": "Products with the code generator use the caller's modulus in every thread", "statement": "Eigen multiplies by the code generator with threads that never install NTL's modulus. The products are nevertheless right in every division and schedule, whatever moduli the threads had before the call and whatever was called in between: the parallel region that precedes them in every expansion leaves the caller's modulus in all threads of its team, and nothing later removes it.", "quantifier": "all scalar types, memories, moduli of the threads, divisions of the loops among threads, interleavings, generators and vectors", "why_tests_cant": "A thread with a stale modulus shows only with many threads, more than 20000 non-zero elements, and a change of modulus between calls; tests see one schedule and one history.", "anchors": ["distributed_vector_ole/distributed_vector_ole.h:DistributedVectorOLE::ExpandSender", "distributed_vector_ole/distributed_vector_ole.h:DistributedVectorOLE::ExpandReceiver", "distributed_vector_ole/distributed_vector_ole.h:DistributedVectorOLE::Create", "distributed_vector_ole/spfss_known_index.h:SPFSSKnownIndex::RunValueProvider", "distributed_vector_ole/spfss_known_index.h:SPFSSKnownIndex::RunIndexProvider", "distributed_vector_ole/internal/ntl_helpers.h:NTLContext"]}
{"id": "C91", "title": "After the first expansion the receiver cannot know the sender's seed and noise", "statement": "Both parties construct their objects, precompute and run once, for a request that fits the first level of the parameters. Then for every other seed, noise values and noise positions that the sender could have drawn, there are random values of the sender for which the receiver sees and gets exactly the same, while the sender's vector is the one that belongs to the other secrets. Nothing is assumed about the block cipher.", "quantifier": "all scalar types with full range or without correlated oblivious transfer, settings, machines, deltas, batch and request sizes, random values of both parties, and other secrets of the sender", "why_tests_cant": "That a receiver learns nothing is about all secrets that explain its view; a test sees one run with one secret.", "anchors": ["distributed_vector_ole/distributed_vector_ole.h:DistributedVectorOLE::PrecomputeSender", "distributed_vector_ole/distributed_vector_ole.h:DistributedVectorOLE::RunSender", "distributed_vector_ole/distributed_vector_ole.h:DistributedVectorOLE::ExpandSender", "distributed_vector_ole/gilboa_internal.h", "distributed_vector_ole/mpfss_known_indices.h:MPFSSKnownIndices::RunIndexProviderVectorOLE"]}
{"id": "C92", "title": "The random generator never repeats a block under one seed", "statement": "Up to the reseed limit no 128-bit block (two consecutive results at an even position) of AESUniformBitGenerator occurs twice under one seed, if AES with the key is a permutation; the counter never returns to an earlier value.", "quantifier": "all ciphers that are permutations under the key, seeds, even buffer sizes and pairs of positions below the limit", "why_tests_cant": "A repetition after up to 2^48 blocks is out of reach of tests.", "anchors": ["distributed_vector_ole/aes_uniform_bit_generator.cpp:AESUniformBitGenerator::operator()", "distributed_vector_ole/aes_uniform_bit_generator.h:AESUniformBitGenerator"]}
{"id": "C93", "title": "Batches of random OTs, point functions and multi-point functions are correct as long as their ints do not overflow", "statement": "A batch of fewer than 2^31 - 1 outputs that needs fewer than 2^31 - 1 oblivious transfers gives what C14 and, as a batch of single-point functions, C17 promise when the numbers of outputs, the loop bounds and the positions of the transfers are computed in int as the code does. Fewer than 2^31 - 1 elements in total are enough for that, so a multi-point function whose hash tables fit in int gives what C33 promises. With more transfers both sides overflow before they send or receive anything, as they do with 2^31 - 1 to 2^32 - 2 outputs, and 2^32 outputs make both sides succeed and leave all outputs as they were.", "quantifier": "all scalar types, block ciphers, numbers and sizes of outputs, indices, and random values of both parties", "why_tests_cant": "The batches at the boundary need tens of gigabytes, and an overflow in int need not be visible in a test.", "anchors": ["distributed_vector_ole/all_but_one_random_ot.h:AllButOneRandomOT::SendTrees", "distributed_vector_ole/all_but_one_random_ot.h:AllButOneRandomOT::RunSenderBatched", "distributed_vector_ole/all_but_one_random_ot.h:AllButOneRandomOT::RunReceiverBatched", "distributed_vector_ole/all_but_one_random_ot.cpp:AllButOneRandomOT::ReceiveTrees", "distributed_vector_ole/spfss_known_index.h:SPFSSKnownIndex::RunValueProviderBatched, RunIndexProviderBatched", "distributed_vector_ole/mpfss_known_indices.h:MPFSSKnownIndices::RunValueProviderVectorOLE, RunIndexProviderVectorOLE"]}
{"id": "C94", "title": "All elements together are as close to uniform as the checks promise", "statement": "If CanBeHashedInto accepts a scalar type for n elements with statistical security s (as the random OTs and the code generator ask it), then no test of all n elements together tells elements made from independent uniform 128-bit values apart from independent uniform elements with an advantage of more than 2^-s. So this holds for all outputs of a batch of random OTs whose sender succeeds (with fewer than 2^31 elements), and, with a third of 2^-s, for all elements of the code generator after every successful precomputation.", "quantifier": "all scalar types of at most 16 bytes, securities, numbers of elements, tests of the whole list of elements, batches, histories", "why_tests_cant": "A statement about the distribution of millions of elements at once, with advantages of 2^-40.", "anchors": ["distributed_vector_ole/internal/scalar_helpers.h:ScalarHelper::CanBeHashedInto", "distributed_vector_ole/all_but_one_random_ot.h:AllButOneRandomOT::SendTrees", "distributed_vector_ole/distributed_vector_ole.h:DistributedVectorOLE::Precompute"]}
{"id": "C95", "title": "A party that stops cannot make the other one return something wrong", "statement": "At whatever point of a protocol one party stops (it crashes, is killed, or returns an error and does not call the library again), and however many of its last messages are lost, the other party takes only finitely many further steps and either returns exactly what it would have returned if nobody had stopped, or returns nothing. This holds on every transport, for every session of two Vector-OLE generators with the same calls in opposite roles, and for all-but-one random OT, single-point and multi-point functions, Gilboa products and the creation of multi-point objects with arguments that both parties accept. A failure is not reported to the other party: if a party stops before it has sent anything, the receiver of random OTs, the index provider of single-point functions, the value provider of Gilboa products and both parties of multi-point functions wait for ever.", "quantifier": "all scalar types, settings, machines, sessions, inputs and random values; all points at which a party stops, all schedules, all transports, all numbers of lost messages", "why_tests_cant": "A party can stop at every step of every schedule; tests only run sessions to their end.", "anchors": ["distributed_vector_ole/distributed_vector_ole.h", "distributed_vector_ole/mpfss_known_indices.h", "distributed_vector_ole/spfss_known_index.h", "distributed_vector_ole/scalar_vector_gilboa_product.h", "distributed_vector_ole/all_but_one_random_ot.h"]}
{"id": "C96", "title": "Later calls do not change earlier answers", "statement": "Two Vector-OLE generators make the same calls in opposite roles; after that each party may make any further calls, not necessarily matching ones nor equally many, or stop at any point. Whatever a party returns begins with the answers it gets if both make the common calls only (which agree, or one party failed alone and makes no further call). A party that makes no further calls returns exactly these answers, however the other one goes on: the session is finite and cannot come to a halt before. This holds on every transport.", "quantifier": "all scalar types, settings, machines, random values, common calls and further calls of either party; all schedules and transports; all points at which a party stops", "why_tests_cant": "The further calls of both parties, the schedule and the buffers are arbitrary; tests make matching calls only.", "anchors": ["distributed_vector_ole/distributed_vector_ole.h:DistributedVectorOLE::PrecomputeSender, PrecomputeReceiver, RunSender, RunReceiver"]}
{"id": "C97", "title": "Sessions of Vector-OLE generators never overflow an int", "statement": "A Vector-OLE generator whose batches compute the numbers of outputs, the loop bounds and the positions of transfers in int, as the code does, behaves exactly as one with unbounded numbers: whatever calls are made and whatever the other party sends, it sends the same messages and returns the same answers. So two parties that make matching calls get correlated answers (C42) and every session ends in lock step (C45).", "quantifier": "all scalar types, settings whose sizes are supported, machines, random values, calls of either party, messages of the other party, and schedules", "why_tests_cant": "The batches at the boundary need tens of gigabytes, and an overflow in int need not be visible in a test; the calls and the other party's messages are arbitrary.", "anchors": ["distributed_vector_ole/distributed_vector_ole.h:DistributedVectorOLE::PrecomputeSender, PrecomputeReceiver, RunSender, RunReceiver", "distributed_vector_ole/mpfss_known_indices.h:MPFSSKnownIndices::RunValueProvider, RunIndexProvider", "distributed_vector_ole/spfss_known_index.h:SPFSSKnownIndex::RunValueProviderBatched, RunIndexProviderBatched", "distributed_vector_ole/all_but_one_random_ot.h:AllButOneRandomOT::RunSenderBatched, RunReceiverBatched"]}
{"id": "C98", "title": "Parties can change roles without precomputing again when the code generator fits", "statement": "With a scalar type that admits the statistical security, a session with positive sizes has no errors, even if the parties change roles from call to call, as long as each Run in a role that has precomputed before finds a code generator for as many seeds as that role has: the last precomputation, in either role, led to a level with the same number of seeds. In particular, if all sizes lead to the same level, the roles can change freely. The session ends with all messages read and all calls answered with correlated elements, unless a random generator is used up or the sender of a call fails alone. C61 is the other case: with a different number of seeds the Run fails.", "quantifier": "all scalar types, settings that make sense, machines, sequences of calls of both parties that satisfy the condition, random values and schedules", "why_tests_cant": "It ranges over all sequences of calls and role changes; the code keeps one generator for both roles, and no test calls one object in both roles.", "anchors": ["distributed_vector_ole/distributed_vector_ole.h:DistributedVectorOLE::PrecomputeSender, PrecomputeReceiver, RunSender, RunReceiver, ExpandSender, ExpandReceiver"]}
{"id": "C99", "title": "A request can be split without changing what is sent or delivered", "statement": "After a precomputation and any further Run calls, Run(n1) followed by Run(n2) and the single call Run(n1 + n2) send the same messages, and receive, transfer and draw random values at the same points, whatever the other party sends and whatever is drawn. They leave the object in the same state. They fail with the same error, or the results of the two calls together have exactly the elements of the result of the one call: the same pairs for the sender, the same elements and the same delta for the receiver. Only the order of the elements may differ, and how it differs depends only on the sizes, the number of cached elements and the batch size: the elements that the second call takes from the last batch of the first call come before those that the first call took from it.", "quantifier": "all scalar types, settings that make sense, machines, histories that end with a precomputation and Run calls in the role, sizes, received messages and random values", "why_tests_cant": "It compares two ways of making a request for all sizes, cache fillings, batch sizes and received messages; a test compares single runs with fresh random values.", "anchors": ["distributed_vector_ole/distributed_vector_ole.h:DistributedVectorOLE::RunSender, RunReceiver, GetSenderResultFromCache, GetReceiverResultFromCache"]}
{"id": "C100", "title": "The two parties need not divide their requests alike", "statement": "After the same precomputation, the sender asks for its elements with Run calls of some sizes and the receiver with Run calls of other sizes, with the same total. Each call returns as many elements as it asks for, no party waits for ever and no message is left over, and w = u delta + v holds after each party has brought its elements into the order of a single call, unless a random generator is used up or the sender fails alone. That order depends only on the sizes and the batch size. It is not the order of the concatenated results: results are cut from the end of a batch, so a user that concatenates the results gets vectors that are not correlated position by position.", "quantifier": "all scalar types that admit the statistical security, settings that make sense, machines, batch sizes, deltas, lists of sizes with the same positive total, random values and schedules", "why_tests_cant": "It ranges over all pairs of divisions of a request; tests only make the same calls on both sides.", "anchors": ["distributed_vector_ole/distributed_vector_ole.h:DistributedVectorOLE::RunSender, RunReceiver, GetSenderResultFromCache, GetReceiverResultFromCache"]}

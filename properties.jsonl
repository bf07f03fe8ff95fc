{"id": "C01", "title": "Serializer round-trip", "statement": "Writing any sequence of scalars, device buffers and strings into a SerializeHelper allocated with the sum of serialize_byte_size of the items, finalizing, and loading the same sequence of types from the resulting byte buffer returns exactly the written values, in order, and never throws or reads/writes outside the buffer.", "quantifier": "every finite sequence of typed items, every value, every length", "why_tests_cant": "the input space is unbounded; a unit test only samples a few literals/sizes", "anchors": ["src/shamalgs/include/shamalgs/serialize.hpp:SerializeHelper", "src/shamalgs/src/serialize.cpp:allocate/finalize"]}
{"id": "C02", "title": "Serializer overflow is detected", "statement": "A write or load that would move past the allocated header or content region throws and performs no memory access; no sequence of accepted operations touches a byte outside the storage.", "quantifier": "every allocation size and every operation sequence, sized correctly or not", "why_tests_cant": "arbitrary mis-sized sequences cannot be enumerated", "anchors": ["src/shamalgs/include/shamalgs/serialize.hpp:check_head_move_host,check_head_move_device"]}
{"id": "C03", "title": "Fortran record IO round-trip", "statement": "Any sequence of records written with write/write_fixed_string/write_string_array/write_val_array and read back with the matching read calls yields the same values and consumes the file exactly; reading a record with a different byte count throws.", "quantifier": "every sequence of records shorter than 2^31 bytes and every value, every (strlen,count)", "why_tests_cant": "the input space is unbounded; a unit test only samples a few literals/sizes", "anchors": ["src/shambase/include/shambase/fortran_io.hpp:FortranIOFile", "src/shambase/include/shambase/bytestream.hpp"]}
{"id": "C04", "title": "Bytestream vector/string round-trip", "statement": "stream_write_vector/_trivial/string followed by the matching read returns the original data and leaves the stream at the end of the record; a record not starting with the vector flag is rejected.", "quantifier": "every vector/string content and every stream prefix/suffix", "why_tests_cant": "the input space is unbounded; a unit test only samples a few literals/sizes", "anchors": ["src/shambase/include/shambase/bytestream.hpp"]}
{"id": "C05", "title": "Endian swap reverses bytes", "statement": "endian_swap of an object of any size (odd sizes included) is exactly the byte-reversed object, and applying it twice is the identity.", "quantifier": "every byte sequence of every length", "why_tests_cant": "the input space is unbounded; a unit test only samples a few literals/sizes", "anchors": ["src/shambase/include/shambase/endian.hpp:endian_swap", "src/shambase/include/shambase/integer.hpp:xor_swap"]}
{"id": "C06", "title": "Integer helpers", "statement": "is_pow_of_two(v) holds iff v is a power of two; roundup_pow2(v) is the least power of two >= v for 1<=v<=2^(w-1); group_count(len,g) is the ceiling of len/g whenever len+g-1 does not wrap.", "quantifier": "every 32-bit and 64-bit value", "why_tests_cant": "2^64 inputs", "anchors": ["src/shambase/include/shambase/integer.hpp"]}
{"id": "C07", "title": "Narrowing is exact", "statement": "narrow_or_throw<U,T>(v) returns the same mathematical integer when v is representable in U and throws otherwise; it never silently changes the value.", "quantifier": "every pair of integer widths/signedness and every value", "why_tests_cant": "all type pairs x all values", "anchors": ["src/shambase/include/shambase/narrowing.hpp"]}
{"id": "C08", "title": "Set difference partition", "statement": "set_diff(c1, ref) classifies ids: missing = in ref not in c1, matching = in both, extra = in c1 not in ref (sorted, each once), for duplicate-free ref.", "quantifier": "all id lists", "why_tests_cant": "the input space is unbounded; a unit test only samples a few literals/sizes", "anchors": ["src/shambase/include/shambase/sets.hpp:set_diff"]}
{"id": "C09", "title": "DistributedData is a map ordered by id", "statement": "Any history of add_obj/erase/get/has_key/reset behaves as a finite map from u64 ids: adding an existing id throws and changes nothing, get of an absent id throws, for_each/get_ids visit each entry exactly once in increasing id order, map preserves ids.", "quantifier": "all operation histories", "why_tests_cant": "unbounded histories", "anchors": ["src/shambase/include/shambase/DistributedData.hpp"]}
{"id": "C10", "title": "Shared distributed data transfer conserves objects", "statement": "tranfer_all(cond, other) moves exactly the entries whose (left,right) satisfies cond, none is lost or duplicated, entries of a same pair keep their insertion order and the entries already in other are kept.", "quantifier": "all multimap contents (with repeated pairs), all conditions", "why_tests_cant": "the input space is unbounded; a unit test only samples a few literals/sizes", "anchors": ["src/shambase/include/shambase/DistributedDataShared.hpp:tranfer_all"]}
{"id": "C11", "title": "Distributed id diff", "statement": "on_distributeddata_diff / on_distributeddata_ids_diff call exactly one callback per id: missing, match or extra according to membership.", "quantifier": "all id sets in u64", "why_tests_cant": "the input space is unbounded; a unit test only samples a few literals/sizes", "anchors": ["src/shambase/include/shambase/DistributedData.hpp:on_distributeddata_ids_diff"]}
{"id": "C12", "title": "FixedStack is a bounded LIFO", "statement": "Any history of push/pop/top/size within capacity behaves as a list stack; overflow and underflow are caught by the assertions and nothing outside the array is touched.", "quantifier": "all capacities and histories", "why_tests_cant": "unbounded histories", "anchors": ["src/shambase/include/shambase/FixedStack.hpp"]}
{"id": "C13", "title": "Morton code round-trip and injectivity", "statement": "morton_to_icoord(icoord_to_morton(x,y,z)) = (x,y,z) for all in-range coordinates, in 32 and 64 bit; codes stay below 2^30 / 2^63, hence never equal the error code.", "quantifier": "all 2^63 (2^30) coordinate triples", "why_tests_cant": "2^63 inputs", "anchors": ["src/shammath/include/shammath/sfc/morton.hpp", "src/shammath/include/shammath/sfc/bmi.hpp"]}
{"id": "C14", "title": "Morton prefix cells are axis aligned boxes", "statement": "All codes sharing the first clz bits with a code whose remaining bits are zero decode to coordinates in [p, p+get_offset(clz)) and every such coordinate has that prefix.", "quantifier": "all codes and prefix lengths", "why_tests_cant": "2^63 inputs x 64 prefixes", "anchors": ["src/shammath/include/shammath/sfc/morton.hpp:get_offset"]}
{"id": "C15", "title": "Hilbert indexing is a bijection", "statement": "Distinct in-range integer coordinates get distinct Hilbert indices below 2^63 (and every index is reached); the 126-bit pair variant is injective as well.", "quantifier": "all coordinate triples of the 2^21 (2^42) cube", "why_tests_cant": "2^63 inputs", "anchors": ["src/shammath/include/shammath/sfc/hilbert.hpp"]}
{"id": "C16", "title": "Radix tree is a binary tree over the leaves", "statement": "For every strictly increasing sequence of Morton codes the Karras kernels, one thread per internal cell in any order, terminate and produce a binary tree rooted at cell 0: each internal cell covers a contiguous range of leaves [min(i,end),max(i,end)], split into the ranges of its two children; each non root cell has exactly one parent and each leaf is reached exactly once.", "quantifier": "all strictly sorted code sequences of 2 to 2^24+1 codes, all thread schedules (beyond that length the float rounding in the split search breaks the tree, which is proved too)", "why_tests_cant": "unbounded code sets", "anchors": ["src/shamtree/src/KarrasRadixTree.cpp:__karras_alg", "src/shambackends/include/shambackends/math.hpp:karras_delta"]}
{"id": "C17", "title": "Radix tree traversal visits exactly the accepted leaves without stack overflow", "statement": "stack_based_traversal calls on_found_leaf exactly once, left to right, for each leaf all of whose ancestors (and itself) satisfy the condition, on_excluded exactly for the first rejected cells, and its fixed stack of bitsizeof(morton) slots never overflows for codes that leave one bit unused, as those of the Morton encoder do (codes using every bit can overflow it, which is proved too).", "quantifier": "all trees built from Morton codes, all conditions", "why_tests_cant": "unbounded trees/conditions", "anchors": ["src/shamtree/include/shamtree/KarrasTreeTraverser.hpp"]}
{"id": "C18", "title": "Leaf reduction partitions objects", "statement": "The Morton reduction returns an index map whose consecutive entries are a partition of [0,N) into non empty ranges in order, starting at 0 and ending at N; each range is exactly the set of objects whose code has one given prefix, so equal codes stay together; the reduced codes are the codes of the range starts and are strictly increasing; level 0 gives one leaf per distinct code, each further level removes exactly the starts of leaves closer to their predecessor than both are to their other neighbours; an empty set is refused.", "quantifier": "all sorted code arrays of 1 to 2^31-1 codes, all reduction levels, all work-item orders and contents of fresh memory", "why_tests_cant": "unbounded inputs", "anchors": ["src/shamtree/src/kernels/reduction_alg.cpp", "src/shamtree/src/MortonReducedSet.cpp"]}
{"id": "C19", "title": "Exclusive scan", "statement": "scan_exclusive returns, in every implementation, out[i] = sum of in[0..i-1] modulo the word size, for every length.", "quantifier": "all arrays", "why_tests_cant": "the input space is unbounded; a unit test only samples a few literals/sizes", "anchors": ["src/shamalgs/src/details/numeric/numericFallback.cpp", "src/shamalgs/src/primitives/scan_exclusive_sum_in_place.cpp"]}
{"id": "C20", "title": "Decoupled look-back scan is schedule independent", "statement": "The parallel decoupled look-back scan yields the sequential scan under every interleaving of work-groups allowed by the dynamic group ids, and always terminates when every group is eventually scheduled.", "quantifier": "all inputs, all group counts, all schedules", "why_tests_cant": "schedules cannot be enumerated by tests", "anchors": ["src/shamalgs/include/shamalgs/details/numeric/scanDecoupledLookback.hpp", "src/shamalgs/include/shamalgs/atomic/DynamicIdGenerator.hpp"]}
{"id": "C21", "title": "Stream compaction", "statement": "stream_compact(flags,len) returns exactly the increasing list of indices with a set flag, and the scan based implementation agrees with the fallback for 0/1 flags.", "quantifier": "all 0/1 flag arrays and lengths", "why_tests_cant": "the input space is unbounded; a unit test only samples a few literals/sizes", "anchors": ["src/shamalgs/src/details/numeric/streamCompactExclScan.cpp", "src/shamalgs/src/details/numeric/numericFallback.cpp"]}
{"id": "C22", "title": "Bitonic sort by key", "statement": "sort_by_key on a power of two length sorts the keys in increasing order, the (key,value) pairs are a permutation of the input pairs, for every stencil size and every work-item order; other lengths are rejected.", "quantifier": "all power of two lengths, all keys/values, all stencil sizes, all work-item orders", "why_tests_cant": "unbounded inputs", "anchors": ["src/shamalgs/src/details/algorithm/bitonicSort_updated_usm.cpp"]}
{"id": "C23", "title": "Segmented sort", "statement": "segmented_sort_in_place sorts each segment [off[i],off[i+1]), permutes elements only inside their segment and leaves elements outside any segment untouched.", "quantifier": "all buffers, all offset arrays, both implementations", "why_tests_cant": "the input space is unbounded; a unit test only samples a few literals/sizes", "anchors": ["src/shamalgs/src/primitives/segmented_sort_in_place.cpp", "src/shambase/include/shambase/alg_primitives.hpp:ptr_insert_sort"]}
{"id": "C24", "title": "Binary searches", "statement": "binary_search_lower_bound/upper_bound return the first index not less / strictly greater than the value in a sorted range, with every probe in range; binary_range_search brackets [value_min,value_max].", "quantifier": "all sorted arrays, ranges and values", "why_tests_cant": "the input space is unbounded; a unit test only samples a few literals/sizes", "anchors": ["src/shamalgs/include/shamalgs/primitives/lower_bound.hpp", "src/shamalgs/include/shamalgs/primitives/upper_bound.hpp", "src/shamalgs/include/shamalgs/primitives/binary_range_search.hpp"]}
{"id": "C25", "title": "Patch split is a partition and merge its inverse", "statement": "Splitting a patch gives eight pairwise disjoint boxes covering exactly the parent; merging them gives back the parent box; splitting a patch of side 2^k keeps sides 2^(k-1).", "quantifier": "all boxes with sides >= 2 in u64 coordinates", "why_tests_cant": "the input space is unbounded; a unit test only samples a few literals/sizes", "anchors": ["src/shamrock/include/shamrock/patch/PatchCoord.hpp", "src/shamrock/include/shamrock/patch/Patch.hpp"]}
{"id": "C26", "title": "Patch tree invariant under every split/merge history", "statement": "After any history of root insertion, split_node on leaves and merge_node_dm1 on parents of only leaves, leaf_key is exactly the set of leaves, parent_of_only_leaf_key exactly the nodes whose 8 children are leaves, child/parent links agree, ids are fresh, and the leaf boxes partition the root box.", "quantifier": "all histories", "why_tests_cant": "unbounded histories", "anchors": ["src/shamrock/src/scheduler/PatchTree.cpp"]}
{"id": "C27", "title": "Patch ids stay unique", "statement": "After any history of split_patch/merge_patch the ids of valid patches in the global list are pairwise distinct and their boxes partition the domain.", "quantifier": "all histories", "why_tests_cant": "unbounded histories", "anchors": ["src/shamrock/src/scheduler/scheduler_patch_list.cpp"]}
{"id": "C28", "title": "Load balancing assigns each patch to a valid rank along the curve, evenly", "statement": "load_balance returns one owner per patch, in [0,world_size), monotone along the Hilbert order (each rank gets a contiguous piece of the curve). With the parallel sweep no rank gets more than its fair share total/world_size, up to a 2^-20 relative rounding, plus one heaviest patch; the strategy finally chosen is at most 100/94 worse. An empty list and loads whose sum exceeds 64 bits are outside (undefined behaviour, proved).", "quantifier": "all non empty patch lists with a total load below 2^64 (2^53 for the balance bound), all world sizes below 2^31, all results std::sort may give", "why_tests_cant": "the input space is unbounded; a unit test only samples a few literals/sizes", "anchors": ["src/shamrock/include/shamrock/scheduler/loadbalance/LoadBalanceStrategy.hpp"]}
{"id": "C29", "title": "Load balancing change list is consistent", "statement": "make_change_list contains exactly the patches whose owner changes, once each, and message tags are distinct for each old owner.", "quantifier": "all patch lists and owner tables", "why_tests_cant": "the input space is unbounded; a unit test only samples a few literals/sizes", "anchors": ["src/shamrock/src/scheduler/HilbertLoadBalance.cpp"]}
{"id": "C30", "title": "Buffer event handling orders conflicting accesses", "statement": "For any history of get_read_access/get_write_access/complete_event_state, and any completion order of events, two accesses to the same buffer with at least one write are always ordered by event dependencies; misuse (access in incomplete state, double completion) throws.", "quantifier": "all access histories, all completion schedules", "why_tests_cant": "asynchronous schedules cannot be enumerated", "anchors": ["src/shambackends/src/details/BufferEventHandler.cpp"]}
{"id": "C31", "title": "A scheduler step loses no object", "statement": "In every state reached by adding root patches, filling patches and running scheduler_step, the next scheduler_step never throws and preserves the multiset of objects of the whole simulation; every rank then holds exactly the patches it owns and every object lies in the box of its patch. (Merging without load balancing is only safe on one rank.)", "quantifier": "all histories, load values, thresholds, owner tables, hash set iteration orders, OpenMP orders and message orders", "why_tests_cant": "unbounded histories and asynchronous schedules", "anchors": ["src/shamrock/src/scheduler/PatchScheduler.cpp:scheduler_step", "src/shamrock/src/scheduler/SchedulerPatchData.cpp", "src/shamrock/src/scheduler/PatchTree.cpp"]}
{"id": "C32", "title": "Patch migration delivers each patch once", "statement": "Applying a load balancing change list moves every patch to the rank of the owner table (a packed patch follows its leader): that rank then holds exactly the objects the old owner held and no other rank holds the patch.", "quantifier": "all reachable states, owner tables and message arrival orders", "why_tests_cant": "message orders cannot be enumerated", "anchors": ["src/shamrock/src/scheduler/SchedulerPatchData.cpp:apply_change_list", "src/shamrock/src/scheduler/HilbertLoadBalance.cpp"]}
{"id": "C33", "title": "Compressed-leaf BVH construction is correct for every input and schedule", "statement": "Rebuilding a compressed leaf BVH from positions (or position ranges) always returns for 1 <= N < 2^31 objects (at most 2^24+1 different codes): the leaves partition the objects, each leaf being exactly the objects whose Morton code has one given prefix; iterating over a leaf or over any cell enumerates exactly the objects below it, once each; and the bounding box stored for every cell is the smallest box around the objects below it, although the boxes are propagated upwards by an in-place kernel whose work items race. No object, or buffers of different sizes, is refused with an exception.", "quantifier": "every list of positions / ranges, every compression level, every order of the work items of every kernel, every interleaving of the memory accesses of the propagation kernels, every content of recycled buffers", "why_tests_cant": "The correctness of the boxes depends on the interleaving of racing in-place updates and on the number of propagation passes being at least the height of the tree, and the partition on arbitrary coincidences of codes; tests only sample a few point sets and one schedule.", "anchors": ["src/shamtree/src/CompressedLeafBVH.cpp: rebuild_from_positions, rebuild_from_position_range", "src/shamtree/src/MortonCodeSet.cpp", "src/shamtree/src/MortonCodeSortedSet.cpp", "src/shamtree/src/KarrasRadixTreeAABB.cpp: propagate_aabb_up, compute_tree_aabb_from_positions", "src/shamtree/include/shamtree/CellIterator.hpp", "src/shamtree/include/shamtree/LeafCellIterator.hpp"]}
{"id": "C34", "title": "BVH object traversal visits exactly the accepted objects, without false negatives or duplicates", "statement": "On a BVH built by the library, the object traversal with any condition on (node id, node box) terminates within its fixed-size stack, reports every object at most once and reports exactly the objects of the leaves all of whose ancestors-or-self satisfy the condition; in particular every object for which the condition accepts every box that contains it is reported, so box overlap queries never miss an object.", "quantifier": "every object set, compression level, schedule, traversal condition and uninitialised stack content", "why_tests_cant": "A missed neighbour only shows up for particular tree shapes and query boxes; no finite set of queries covers all trees and all conditions.", "anchors": ["src/shamtree/include/shamtree/CLBVHObjectIterator.hpp: rtree_for", "src/shamtree/include/shamtree/KarrasTreeTraverser.hpp: stack_based_traversal", "src/shamtree/include/shamtree/LeafCellIterator.hpp: for_each_in_leaf_cell"]}
{"id": "C35", "title": "Device buffers behave as arrays and are accounted exactly", "statement": "For every history of creating, destroying, resizing (with or without keeping the data), appending, filling, writing one value, and copying from vectors, buffers and ranges, on any number of device buffers: reading a buffer back gives exactly what the same calls on plain arrays give (cells that were never written are unspecified), resizing keeps the common prefix, appending concatenates, a call either succeeds or throws and then changes nothing, throwing only when the range is bad, the sizes disagree, the buffer is appended to itself or the allocator refuses; the counter of allocated bytes always equals the sum of the storage of the live buffers (no leak, no double count), and a buffer never holds less than its contents nor more than twice its rounded contents.", "quantifier": "every history of calls with arguments in range, every element size and device alignment, every allocation limit, every content of recycled memory, every order of the chunks of the parallel fill", "why_tests_cant": "Stale contents, lost elements or drifting memory counters only show up after particular sequences of growth, shrink and append; there are unboundedly many histories.", "anchors": ["src/shambackends/include/shambackends/DeviceBuffer.hpp: DeviceBuffer, resize, append, fill, copy_from, copy_range, copy_from_stdvec, copy_to_stdvec, set_val_at_idx, get_val_at_idx", "src/shambackends/src/details/memoryHandle.cpp", "src/shambackends/src/details/internal_alloc.cpp"]}
{"id": "C36", "title": "Patch data layers are lists of whole objects", "statement": "For every history of resize, expand, index_remap, keep_ids, remove_ids, insert_elements, overwrite, append_subset_to and extract_elements on any number of PatchDataLayers: every field of a layer always holds the same number of objects, and the objects (the rows of all the fields taken together) are exactly those obtained by doing the same list operations on whole objects: no object is lost, duplicated, torn between fields or reordered differently from one field to the next; a call either does this or throws and changes nothing (for extract_elements under the documented precondition that the ids are different). Selecting ids by a condition returns exactly the matching objects, in order, on the host and on the device alike; permut_vars moves variables only inside objects.", "quantifier": "every layout (any number of fields, any number of variables per object), every contents, every history of calls with arguments in range, every scheduling of the kernels, every correct scan, every content of fresh memory", "why_tests_cant": "Misalignment between fields appears only for particular numbers of variables, id lists and call sequences; there are unboundedly many layouts and histories.", "anchors": ["src/shamrock/src/patch/PatchDataLayer.cpp: extract_elements, insert_elements, overwrite, resize, expand, index_remap, keep_ids, remove_ids, append_subset_to, check_field_obj_cnt_match", "src/shamrock/src/patch/PatchDataField.cpp: extract_element, extract_elements, append_subset_to, insert_element, insert, index_remap, index_remap_resize, permut_vars, remove_ids", "src/shamrock/include/shamrock/patch/PatchDataField.hpp: get_obj_cnt, resize, expand, shrink, overwrite, get_ids_vec_where, get_ids_where", "src/shamalgs/src/primitives/append_subset_to.cpp", "src/shamalgs/src/details/algorithm/algorithm.cpp: index_remap, index_remap_nvar"]}
{"id": "C37", "title": "Patches cut the simulation box into disjoint boxes of positions", "statement": "After any history of the scheduler, the boxes of positions computed for the patches (patch_coord_to_domain and the test is_in_patch_converted) are such that every position, NaN and infinities included, is in at most one patch, and is in some patch iff it is in the box of a root patch; so no particle can be claimed by two patches, and none is between two patches. This holds with or without contraction into FMA. When the roots cut a grid of 2^k cells per axis and the lengths of the simulation box are exact doubles (or with integer positions as soon as the conversion does not throw), the patches cover exactly the simulation box. make_patch_base_grid never fails for 1..2^21 patches per axis and cuts its bounding box into the root patches.", "quantifier": "every history of the scheduler, every grid, every finite simulation box of magnitude up to 2^900 (doubles) or any u64 box, every position", "why_tests_cant": "The bounds go through integer to double conversions, a rounded quotient, a rounded product and sum: whether two neighbouring boxes share exactly the same bound for all 2^63 grids and all boxes cannot be tested.", "anchors": ["src/shamrock/include/shamrock/patch/Patch.hpp: is_in_patch_converted", "src/shamrock/include/shamrock/patch/PatchCoord.hpp: get_patch_range", "src/shamrock/include/shamrock/patch/PatchCoordTransform.hpp", "src/shammath/include/shammath/CoordRangeTransform.hpp: transform", "src/shammath/src/CoordRangeTransform.cpp", "src/shamrock/include/shamrock/patch/SimBox.hpp: get_patch_transform, patch_coord_to_domain", "src/shamrock/src/scheduler/PatchScheduler.cpp: make_patch_base_grid"]}
{"id": "C38", "title": "Splitting and merging patch data moves whole objects to the right patch", "statement": "When a patch is split, the rank that holds its data ends with eight layers: each contains whole objects (all the fields of an object together, unchanged) whose position is in the box of positions of that child, together they contain exactly the objects of the patch, and the data of other patches is untouched. If some object (a NaN position included) is outside the box of the patch, the split throws and the data of the rank is unchanged. Merging gives one layer with all the objects of the merged patches; it throws and changes nothing if one of them is missing. This is what the scheduler model (C27-C31) assumes of the data.", "quantifier": "every layout, every set of objects, double or integer positions, every patch box and simulation box, every kernel schedule", "why_tests_cant": "Whether rounding can put an object in no child or in two children, and whether an exception can leave data half moved, depends on all positions, boxes and field layouts.", "anchors": ["src/shamrock/src/patch/PatchDataLayer.cpp: split_patchdata", "src/shamrock/src/scheduler/SchedulerPatchData.cpp: split_patchdata, merge_patchdata", "src/shamrock/include/shamrock/patch/PatchDataField.hpp: check_err_range, get_ids_vec_where"]}
{"id": "C39", "title": "The serialised patch tree finds the patch of every position", "statement": "After any history of the scheduler, SerialPatchTree::build succeeds and compute_patch_owner gives to each position the id of the one patch whose box of positions contains it, in every execution of its kernel; a position in no patch gets u64_max if the first root patch was split. host_for_each_leafs calls found_case at most once per patch, only with patches whose box satisfies the condition, and misses no patch containing a position for which the condition holds at every level of the tree.", "quantifier": "every reachable state of the scheduler, every enumeration order of the set of roots, every list of positions (NaN and infinities included), every kernel schedule, every condition", "why_tests_cant": "The search compares rounded float boxes at each level of trees of any depth; whether a position can fall between the boxes of the children of a node, or be attributed to another patch, depends on all trees, boxes and positions.", "anchors": ["src/shamrock/include/shamrock/scheduler/SerialPatchTree.hpp: compute_patch_owner, host_for_each_leafs_internal", "src/shamrock/src/scheduler/SerialPatchTree.cpp: get_serial_tree, build_from_patch_tree", "src/shamrock/include/shamrock/scheduler/PatchTreeNode.hpp: convert"]}
{"id": "C40", "title": "Reductions over the patch tree are complete and independent of the schedule", "statement": "make_patch_tree_field gives to every node of the patch tree the reduction (with an associative operation) of the values of exactly the patches inside its box, each counted once, although the work items of one level read values that other items are overwriting.", "quantifier": "every reachable patch tree, every associative operation and field, every interleaving of the reads and writes of the work items of each kernel", "why_tests_cant": "The kernel of a level reads and writes the same buffer concurrently: only some interleavings would show a stale or partial value in the result.", "anchors": ["src/shamrock/include/shamrock/scheduler/SerialPatchTree.hpp: make_patch_tree_field"]}
{"id": "C41", "title": "The sparse exchange delivers every message once, in place, and cannot deadlock", "statement": "build_sparse_exchange_table gives every rank the same list of messages with tags that are distinct among the messages of a sender, and places for the messages it sends and receives that lie inside buffers within the allocation limit and do not overlap; it throws when a message is above the limit of its sender or receiver. sparse_exchange over those tables and buffers of the announced sizes terminates on every schedule, with at most 128 requests in flight per rank and without relying on MPI buffering any send, and leaves at the place of each message of each receiver the bytes that the sender had at its place.", "quantifier": "every number of ranks, every request list (messages to oneself and several messages between the same ranks included), every allocation limit, every buffer content, every interleaving of the ranks and of the matching and completion of requests by MPI", "why_tests_cant": "A deadlock caused by the in-flight limit or a crossed tag shows only for some message patterns and some timings of the ranks and of MPI; tests run a few patterns on few ranks with an MPI that buffers small messages.", "anchors": ["src/shamalgs/src/collective/sparse_exchange.cpp: build_sparse_exchange_table, sparse_exchange", "src/shamalgs/include/shamalgs/collective/sparse_exchange.hpp: CommMessageInfo, CommTable", "src/shamalgs/include/shamalgs/collective/RequestList.hpp: spin_lock_partial_wait, wait_all"]}
{"id": "C42", "title": "Communicating a distributed multimap gives every rank exactly the objects addressed to it", "statement": "distributed_data_sparse_comm, called on all ranks, either throws before any byte is sent (and does not throw when the objects between each pair of ranks fit the limits of both), or on every schedule terminates and leaves in the receiving container of each rank, under each key (sender id, receiver id), exactly the byte buffers that all the ranks had under that key if the receiver id belongs to that rank, in the same order, after what the container already held, and nothing else.", "quantifier": "every number of ranks, every assignment of ids to ranks, every content of the multimaps (several objects per key, empty buffers, objects for oneself), every communication and device limit, every order of the work items of the copy kernels, every interleaving of the ranks and of MPI", "why_tests_cant": "The splitting into messages, the packing of several objects in one message, the tables and the exchange interact; a loss or a reordering shows only for some combination of sizes, limits and timings.", "anchors": ["src/shamalgs/src/collective/distributedDataComm.cpp: distributed_data_sparse_comm, serialize_group_data_max_size", "src/shamalgs/src/collective/sparse_exchange.cpp: build_sparse_exchange_table, sparse_exchange", "src/shamalgs/include/shamalgs/serialize.hpp: SerializeHelper"]}
{"id": "C43", "title": "serialize_sparse_comm moves objects between ranks unchanged, and a PatchDataLayer survives its serialization", "statement": "serialize_sparse_comm, called on all ranks with functions that serialize and read back the objects, ends on every schedule and leaves on each rank, under each key (sender id, receiver id), exactly the objects that the ranks had under that key if the receiver id belongs to that rank, in order, including those that did not leave their rank; it starts whenever the bytes between each pair of ranks fit the limits. Serializing a PatchDataLayer takes exactly the announced number of bytes and reading the buffer with the same layout gives an equal layer, so the two functions can be used together.", "quantifier": "every number of ranks, ids, objects and limits, every interleaving of ranks and MPI, every layout, number of objects (none included) and values of a layer below 2^32 bytes, every order of the work items, every content of new memory", "why_tests_cant": "Tests send a few random buffers between the ranks they run on; a wrong size, a count read for the wrong field, or an object lost when it stays on its rank depends on the layout, on empty layers and on the distribution of the ids.", "anchors": ["src/shamalgs/include/shamalgs/collective/distributedDataComm.hpp: serialize_sparse_comm", "src/shamrock/src/patch/PatchDataLayer.cpp: serialize_buf, deserialize_buf, serialize_buf_byte_size", "src/shamrock/src/patch/PatchDataField.cpp: serialize_buf, deserialize_buf, serialize_buf_byte_size"]}
{"id": "C44", "title": "Reattribution moves every object to the patch that contains it, on all ranks, and loses or changes none", "statement": "ReattributeDataUtility::reatribute_patch_objects, called on all ranks: when every object belongs to some patch, the exchange ends on every schedule and then each patch contains its own objects that were already there, in order, followed by those that come from the other patches (by increasing id of the source, in order), with all their fields unchanged; so all patches together hold the same objects as before, each patch holds all and only its own, and doing it again moves nothing. It starts whenever the bytes between each pair of ranks fit the limits, otherwise it throws; when the search of the owner fails for an object (error value) it throws. With double precision positions and the arrays built from any reachable scheduler state, the search kernel gives the patch that contains each position.", "quantifier": "every number of ranks, patches (empty ones included), objects and fields, every assignment of objects to patches, every placement of the patches on the ranks, every iteration order of the unordered maps, every order of work items and content of new memory, every interleaving of ranks and MPI messages, every limit of memory and message size", "why_tests_cant": "A test moves a few particles between a few patches; an object lost between two patches of one rank, duplicated when two sources send to one patch, or a field left in the old order appears only for particular distributions over patches and ranks.", "anchors": ["src/shamrock/include/shamrock/scheduler/ReattributeDataUtility.hpp: compute_new_pid, extract_elements, reatribute_patch_objects", "src/shamalgs/include/shamalgs/collective/distributedDataComm.hpp: serialize_sparse_comm", "src/shamrock/include/shamrock/scheduler/SerialPatchTree.hpp: compute_patch_owner"]}
{"id": "C45", "title": "The dual tree traversal lists every pair of objects in exactly one interaction", "statement": "clbvh_dual_tree_traversal on a built compressed leaf BVH, for any acceptance criterion and with or without leaf lowering: the two returned lists contain only node ids of the tree; every ordered pair of objects (itself included) is below exactly one of the listed pairs of cells; the pairs of the M2L list satisfy the criterion and those of the P2P list do not and cannot be split further (both cells are leaves with lowering, some child is a leaf without). The reference, scan-multipass and parallel-select implementations return the same lists up to order in every schedule of their kernels; with the ordering requested the offsets delimit the pairs of each first cell, and the reference and multipass results are then identical. A symmetric criterion gives symmetric lists. A tree that was not built is refused. (Parallel select: for objects that are points coded by their grid coordinates; for arbitrary boxes its stacks can overflow.)", "quantifier": "every set of objects and compression level that C33 accepts, every acceptance criterion, every implementation, every order of the work items of every kernel, every content of new and grown memory, fewer than 2^30 interactions", "why_tests_cant": "The tests compare the implementations on a few random distributions with one opening angle; a pair of cells handled twice or not at all, a stack too small by one, or a compaction race shows only on particular trees, criteria or schedules.", "anchors": ["src/shamtree/src/CLBVHDualTreeTraversal.cpp: clbvh_dual_tree_traversal", "src/shamtree/include/shamtree/details/dtt_reference.hpp", "src/shamtree/include/shamtree/details/dtt_scan_multipass.hpp", "src/shamtree/include/shamtree/details/dtt_parallel_select.hpp", "src/shamtree/include/shamtree/details/reorder_scan_dtt_result.hpp"]}
{"id": "C46", "title": "The fast multipole operators compute the Taylor expansion they stand for", "statement": "Over exact arithmetic: the product of two symmetric tensors is the full contraction over the indices of the smaller one; from_vec gives the tensor powers; storing the collection of a cell and loading any cell returns the stored value for that cell and the old one for the others. offset_multipole of the moments of any set of point masses about one centre gives its moments about the other centre, every order 0 to 5. The Green function tensors are the successive partial derivatives of 1/|r|, in all eleven variants. get_M_mat and get_dM_mat are the signed, factorial-weighted contractions of derivatives with moments; evaluating at x the local expansion obtained from moments gives, for every mass, the order-(p-1) Taylor polynomial of grad 1/|r| around the separation of the centres, at the true offset of the mass relative to x, for each compiled order p = 1..5. Moving a local expansion to another centre leaves the field it evaluates to unchanged at every point; adding expansions adds the fields.", "quantifier": "all tensors, all finite sets of point masses, all centres and evaluation points (separation non zero for the derivatives), orders 1 to 5, all buffers and cell ids", "why_tests_cant": "Tests evaluate the formulas at a few random vectors with a tolerance: a wrong coefficient in one of several hundred hand-expanded components, or a missing term at one order, hides below the tolerance or in a component that is small for the sample.", "anchors": ["src/shammath/include/shammath/symtensors.hpp", "src/shammath/include/shammath/symtensor_collections.hpp", "src/shamphys/include/shamphys/fmm/offset_multipole.hpp: offset_multipole", "src/shamphys/include/shamphys/fmm/GreenFuncGravCartesian.hpp: get_der_tensors", "src/shamphys/include/shamphys/fmm/grav_moments.hpp: get_M_mat, get_dM_mat", "src/shamphys/include/shamphys/fmm/grav_moment_offset.hpp: offset_dM_mat", "src/shamphys/include/shamphys/fmm/contract_grav_moment.hpp: contract_grav_moment_to_force"]}
{"id": "C47", "title": "Tree self gravity adds, for every particle, each other particle exactly once, expanded or exact", "statement": "One update of the SGSFMMPlummer solver (moments of the leaves, upward pass, dual tree traversal, M2L, downward pass, L2P, inversion of the cell/particle lists, P2P), over exact arithmetic: it succeeds on every tree with at least two leaves built from the particles, for each multipole order 1 to 5, each acceptance criterion, either traversal option, every ordering of the work items, every fair interleaving of the tree passes and any content of fresh buffers; to the acceleration of each particle i it adds exactly one contribution from each particle j: the Plummer-softened Newtonian acceleration if the pair is below a near (P2P) pair of cells, the order-(p-1) Taylor expansion of Newton's acceleration about the centres of the two cells if it is below an accepted (M2L) pair, never both. An accepted pair is separated as the opening angle requires, for every pair of particles in it. With the standard criterion the sum of the accelerations is unchanged (momentum conservation), and with opening angle 0 the result is the direct sum. On a single-leaf tree the update throws.", "quantifier": "all particle sets (any tree the builder returns), orders, opening angles, G, mass, softening > 0, previous accelerations, schedules, interleavings and stale memory, within the 32-bit index bounds", "why_tests_cant": "The tests compare with a direct sum for a few particle sets within a tolerance larger than the truncation error: a pair counted twice or lost at one level, or an expansion about the wrong centre, can stay below it; races between levels depend on the schedule.", "anchors": ["src/shammodels/sph/src/modules/self_gravity/SGSFMMPlummer.cpp", "src/shammodels/sph/include/shammodels/sph/modules/self_gravity/compute_tree_mass_moments.hpp", "src/shamtree/include/shamtree/CellIterator.hpp", "src/shamtree/include/shamtree/CLBVHDualTreeTraversal.hpp", "src/shamphys/include/shamphys/fmm"]}
{"id": "C48", "title": "Direct, particle-walk and leaf-walk self gravity add, for every particle, each other particle exactly once", "statement": "The direct self gravity solver, in its reference and its tiled (work-group) mode, adds to the acceleration of each particle exactly the sum of the Plummer-softened accelerations of all the other particles, so the sum of the accelerations is unchanged. The MM and FMM solvers (one tree walk per particle, resp. per leaf), over exact arithmetic, succeed on every tree built from the particles, including a single leaf, for each order 1 to 5 and every opening angle > 0: each particle i receives from each particle j exactly one contribution, the order-(p-1) expansion about the centre of one cell around j that satisfies the opening criterion, or the softened exact one when no cell around j does. For an opening angle of 0 the walks expand the force of a particle on itself at distance 0.", "quantifier": "all particle sets, orders, opening angles > 0, G, mass, softening > 0, previous accelerations, orders of work groups and of their work items between barriers, contents of local memory and of the traversal stacks, within the 32-bit index bounds", "why_tests_cant": "Tests compare a few configurations within a tolerance; a lost or doubled particle at a tile boundary, or a cell both opened and expanded, depends on the particle count and the tree; schedules of the work items cannot be enumerated.", "anchors": ["src/shammodels/sph/src/modules/self_gravity/SGDirectPlummer.cpp", "src/shammodels/sph/src/modules/self_gravity/SGMMPlummer.cpp", "src/shammodels/sph/src/modules/self_gravity/SGFMMPlummer.cpp", "src/shamtree/include/shamtree/CLBVHObjectIterator.hpp"]}
{"id": "C49", "title": "SPH neighbour lists are exact", "statement": "compute_presteps_rint followed by start_neighbors_cache (one-stage or two-stage), over exact arithmetic, succeeds on every tree built from the merged particles. The list then read through the cache for particle a contains every particle b (a itself included) with |r_a - r_b| <= Rkern * htol * max(h_a, h_b), exactly once, and nothing else; so the relation is symmetric, both versions give the same sets, and the lists stay complete as long as no smoothing length grows by more than the factor htol. The radius stored for each tree cell is the largest smoothing length below it.", "quantifier": "all particle sets, smoothing lengths, tolerances and kernel radii >= 0, numbers of particles that get a list, orders of the work items, interleavings of the accesses of the upward passes, contents of new buffers and stacks; at most 2^32 - 1 interacting pairs (and pairs of nearby leaves); Morton codes interleaving grid coordinates for the two-stage version", "why_tests_cant": "A missed neighbour needs a particular position of a box, a cell radius and a support boundary; tests compare densities in a few set-ups where a rare missing pair is invisible. The upward pass races between work items, which tests do not enumerate.", "anchors": ["src/shammodels/sph/src/modules/NeighbourCache.cpp", "src/shammodels/sph/src/Solver.cpp: compute_presteps_rint", "src/shamtree/include/shamtree/KarrasRadixTreeField.hpp", "src/shamtree/include/shamtree/TreeTraversal.hpp: prepare_object_cache, ObjectCacheIterator"]}
{"id": "C50", "title": "SPH force kernels compute the equations and conserve momentum, angular momentum and energy", "statement": "Given neighbour lists that cover the current smoothing lengths, update_derivs (constant, MM97/CD10 and disc viscosity), over exact arithmetic, writes for every particle of the patch the sum over all particles of the documented pair terms (Phantom 2018 eq. 34, 35, 42 with the viscous pressures), whatever the order of the lists and of the work items, and leaves the other entries alone. Without ghosts the total force and the total torque vanish and the energy gained as heat is exactly the kinetic energy lost. Artificial viscosity never cools, artificial conductivity moves heat from hot to cold without creating energy, and the result does not depend on a constant velocity or shift added to all the particles.", "quantifier": "all particle fields with positive smoothing lengths and nonzero omega, all kernels dW that vanish beyond Rkern h, all viscosity parameters with nonnegative signal velocities, all lists that cover, all orders of work items; for the sign statements all kernels with dW <= 0 and omega > 0", "why_tests_cant": "The regression tests compare a few runs with tolerance; a term that is not symmetric in the two particles in some regime (unequal h, one-sided support, separating particles) shows up only as a slow drift.", "anchors": ["src/shammodels/sph/src/modules/UpdateDerivs.cpp: update_derivs_constantAV, update_derivs_disc_visco", "src/shammodels/sph/src/modules/NodeUpdateDerivsVaryingAlphaAV.cpp", "src/shammodels/sph/include/shammodels/sph/math/forces.hpp", "src/shammodels/sph/include/shammodels/sph/math/q_ab.hpp", "src/shammodels/sph/include/shammodels/sph/math/density.hpp"]}
{"id": "C51", "title": "The SPH smoothing kernels have the derivatives, norms and potentials they declare", "statement": "For each of the 18 polynomial kernels of the library (M4..M10, C2, C4, C6, the four shifted and the four double hump M4) and every smoothing length h > 0, over exact arithmetic: dW_3d is the derivative of W_3d with respect to the distance, dhW_3d that with respect to h, ddW_3d the second derivative (everywhere for the bell and double hump kernels; away from the plateau edge for the shifted ones); all of them vanish from r = Rkern h on; the kernel is non negative, and the bell and shifted ones never increase with r; W_1d, W_2d and W_3d integrate to one over the line, the plane and the space; phi_3D_prime is the derivative of phi_3D and r^2 phi_3D_prime is the mass of the kernel within r (Poisson's equation), and outside the kernel phi_3D is -1/r. For the two truncated Gaussians df and ddf are the first and second derivatives of f away from the truncation radius, f is non negative, df <= 0 for q >= 0 and all vanish from the radius on.", "quantifier": "all 18 polynomial kernels, all r (r > 0 for the potential), all h > 0; for the Gaussians all truncation radii and all q different from the radius", "why_tests_cant": "The unit test samples r on a grid and compares with finite differences and Riemann sums within a tolerance: a wrong coefficient in a narrow piece or a jump between two pieces smaller than the tolerance goes unnoticed, and conservation (C50) needs the compact support and the sign everywhere.", "anchors": ["src/shammath/include/shammath/sphkernels.hpp: KernelDefM4 .. KernelDefM10, KernelDefC2, KernelDefC4, KernelDefC6, KernelDefM4DoubleHump*, KernelDefM4Shift*, SPHKernelGen", "src/shambackends/include/shambackends/math.hpp: pow_constexpr"]}
{"id": "C52", "title": "The smoothing length iteration makes damped Newton steps on the true density and never leaves the reach of the neighbour lists", "statement": "For every set of positions (with ghosts), every kernel of C51 and neighbour lists that contain at least the particles within htol times the supports at the start of the subcycle, over exact arithmetic, for every order of the work items of every call: each call of the kernel gives the same result, in which each particle not yet at eps <= 1e-6 has made one Newton step on (density summed over all the particles) - m (hfact / h)^3, limited to a factor h_evol_iter_max, or sits at the largest length the lists allow with eps = -1; division by a zero slope never yields a NaN or infinite h; all lengths stay positive and within the reach of the lists. The loop over iterations and ranks reports convergence exactly if all the eps of all the ranks are in [0, epsilon_h), and then each length is the result of an undamped Newton step that moved it by less than epsilon_h times its old value (for epsilon_h <= (p-1)/p^N, which the defaults satisfy). The subcycles of a time step, if they succeed, end with lists that cover the final lengths, so the forces of C50 may use them. omega is 1 + h/(3 rho) d rho/dh of the full sum, and 1 for the particles flagged by the limiter. The limiter divides h by h_evol_iter_max if more than max_neigh_count particles are in the support, keeps h if a growing step could bring more than that, and is the plain step otherwise.", "quantifier": "all positions, lists, smoothing lengths, kernels, configurations, patches, ranks, numbers of iterations and subcycles, and all orders of the work items of each call", "why_tests_cant": "Whether the truncated neighbour list silently loses mass during the iteration depends on the history of each h across iterations and subcycles; tests look at a few lattices where one subcycle suffices and never at a zero slope or at ranks that converge at different iterations.", "anchors": ["src/shammodels/sph/src/modules/IterateSmoothingLengthDensity.cpp: IterateSmoothingLengthDensity::_impl_evaluate_internal", "src/shammodels/sph/src/modules/IterateSmoothingLengthDensityNeighLim.cpp: IterateSmoothingLengthDensityNeighLim", "src/shammodels/sph/src/modules/LoopSmoothingLengthIter.cpp: LoopSmoothingLengthIter", "src/shammodels/sph/src/modules/ComputeOmega.cpp: NodeComputeOmega, SetWhenMask", "src/shammodels/sph/include/shammodels/sph/math/density.hpp: newton_iterate_new_h, rho_h", "src/shammodels/sph/src/Solver.cpp: sph_prestep"]}
{"id": "C53", "title": "The numerical fluxes of the Godunov solver are consistent, conservative and positivity preserving", "statement": "For all gas states with positive density and pressure, every gamma > 1, each solver (Rusanov, HLL, HLLC) and each of the six directions, over exact arithmetic: between two equal states the flux is the exact Euler flux along the direction; the flux computed from the other side of the face is exactly opposite in mass, momentum and energy (Rusanov and HLL always; HLLC when its three wave speeds are ordered, which mild jumps guarantee, and NOT for head-on streams faster than about Mach 1.9, where each side loses the mass rho v); supersonic flow takes the upstream flux; HLLC resolves isolated contacts and shear waves exactly and is the flux of the three-wave solution with Toro's signal speeds; each face's share of a cell stays a state of positive density and pressure for any speed that bounds the signal speeds. The conversions between primitive and conserved variables are inverse. The two dust fluxes are consistent, conservative and keep the dust density non-negative. The slope limiters vanish unless the slopes agree in sign and then lie between the two slopes.", "quantifier": "all pairs of physical states, adiabatic indices, solvers and directions; all pairs of slopes", "why_tests_cant": "Tests compare a few shock tubes; the antisymmetry of the flux must hold for every pair of states because a single face that breaks it destroys the global conservation of mass and energy.", "anchors": ["src/shammath/include/shammath/riemann.hpp: rusanov_flux_x, hll_flux_x, hllc_flux_x, prim_to_cons, cons_to_prim, hydro_flux_x, y_to_x, z_to_x, invert_axis", "src/shammath/include/shammath/riemann_dust.hpp: d_hll_flux_x, huang_bai_flux_x", "src/shammath/include/shammath/slopeLimiter.hpp: van_leer_slope, van_leer_slope_symetric, minmod", "src/shammodels/ramses/include/shammodels/ramses/modules/ComputeFluxUtilities.hpp: FluxCompute, DustFluxCompute"]}
{"id": "C54", "title": "One Godunov step on an adaptive mesh conserves mass, momentum and energy, keeps uniform flow and stays positive", "statement": "On any mesh of disjoint cubic blocks of 2x2x2 cells, of any refinement, split over any number of patches with complete ghosts (periodic or not): the neighbour graph of each direction lists for every cell, once each, exactly the cells that share a face with it on that side; the face surfaces add up to the area of the cell's face; one step (slopes, interpolation to the faces, fluxes, flux sum, time integration) leaves the total mass, momentum and energy unchanged for every limiter and every solver that is antisymmetric at the faces concerned (always at first order with Rusanov or HLL); gas in one state everywhere stays in it exactly; at first order with Rusanov or HLL, densities and pressures stay positive when no signal crosses a sixth of a cell in a step. For an affine flow every limiter gives the exact slope, and the face states are exact at the face centre plus half a step of the Euler equations, next to equal cells and to cells half as large.", "quantifier": "all block meshes, refinements, patch decompositions, gas states, limiters, solvers, time steps; all orders of the parallel items", "why_tests_cant": "Conservation depends on every face being seen from both sides with the same area and the same interpolated states, across refinement levels, patches and periodic images; tests run a few uniform grids.", "anchors": ["src/shammodels/ramses/src/modules/FindBlockNeigh.cpp", "src/shammodels/ramses/src/modules/BlockNeighToCellNeigh.cpp", "src/shammodels/ramses/src/modules/ComputeCellAABB.cpp", "src/shammodels/ramses/src/modules/ConsToPrimGas.cpp", "src/shammodels/ramses/src/modules/SlopeLimitedGradient.cpp", "src/shammodels/ramses/src/modules/InterpolateToFace.cpp", "src/shammodels/ramses/src/modules/NodeComputeFlux.cpp", "src/shammodels/ramses/src/modules/SumFluxHydro.cpp", "src/shammodels/ramses/src/modules/TimeIntegrator.cpp"]}
{"id": "C55", "title": "The store of neighbour caches always returns the right entry, within its memory limit, and builds each entry once", "statement": "For every history of get_cache, preload and reset on an ObjectCacheHandler (exceptions caught or not): nothing undefined happens; every entry returned has the content the generator gives for that id, even after a trip to the host; a call fails only if the generator fails or the entry alone exceeds the limit; the device memory counter is the memory in use and never exceeds the limit; an entry is stored once, on the device or on the host. Without reset or failure the generator is called exactly once per id and no entry is lost; without failure entries leave the device oldest first.", "quantifier": "all histories of calls, all generators, entry sizes and limits", "why_tests_cant": "The store is a state machine over two maps, a queue with duplicates and two counters; what goes wrong depends on the whole history of sizes and evictions.", "anchors": ["src/shamtree/include/shamtree/TreeTraversalCache.hpp: ObjectCacheHandler::get_cache, preload, build_cache, reset", "src/shamtree/include/shamtree/TreeTraversal.hpp: ObjectCache, HostObjectCache"]}
{"id": "C56", "title": "Sinks capture each particle once, conserve mass, centre of mass and momentum, and feel the opposite of the forces they exert", "statement": "For every distribution of the gas over ranks and patches, every set of sinks and every kernel schedule: a particle in the accretion sphere of some sink is taken by the first such sink only, all others stay unchanged and in order; the sink gets exactly the mass, centre of mass, momentum and force of what it takes, its spin the angular momentum around it; so total mass, centre of mass and momentum are conserved by accretion. Gas-sink forces are Newton's outside the accretion radius, sink-sink forces softened; they have no resultant and no torque. The integration of the sinks is time reversible. Over any number of time steps in which the hydro forces have no resultant, mass and momentum are conserved and the centre of mass moves uniformly. The angular momentum changes, per step, by exactly dt/2 times the sum of M (X'-X) x A over the sinks that moved by accreting. Central objects remove exactly the particles within their radius.", "quantifier": "all particles, ranks, patches, sinks, time steps, schedules and redistributions", "why_tests_cant": "Conservation is a statement about all configurations and all partitions of the particles between ranks, patches and overlapping spheres; a test checks a few and with a tolerance.", "anchors": ["src/shammodels/sph/src/modules/SinkParticlesFlagAccreteHard.cpp", "src/shammodels/sph/src/modules/SinkParticlesAccreteQuantities.cpp", "src/shammodels/sph/src/modules/SinkParticlesEvictAccretedParticles.cpp", "src/shammodels/sph/src/modules/SinkParticlesUpdate.cpp: predictor_step, corrector_step, compute_sph_forces, compute_ext_forces", "src/shammodels/sph/src/modules/ExternalForces.cpp: point_mass_accrete_particles", "src/shammodels/sph/src/Solver.cpp: evolve_once"]}
{"id": "C57", "title": "The SPH ghost exchange gives each patch exactly the images in reach, once each, and so every neighbour", "statement": "After every history of domain splittings, merges and load balancings, for free, periodic and shearing periodic boxes and every schedule of the kernels and of the messages: building the interface tables does not fail, and the merged data of a non empty patch is its own particles, in order, followed by one copy of each particle image (any particle of any patch displaced by one of the offsets of the box, other than itself unmoved) lying in the box of the patch enlarged by the largest interaction radius of its particles, displaced in position (and in speed for the shear), and nothing else; an empty patch gets nothing. No two offsets coincide. So, if that radius does not exceed the box, every image of a particle within the interaction radius of a particle of the patch is in its merged data.", "quantifier": "all scheduler histories, patch sets, particles, boxes, configurations, ranks, kernel schedules and message orders", "why_tests_cant": "Completeness of the ghosts is a statement about all decompositions and all positions, including images through corners and sheared boundaries; a missing neighbour shows only as a small error in some density.", "anchors": ["src/shammodels/sph/src/BasicSPHGhosts.cpp: find_interfaces, gen_id_table_interfaces", "src/shammodels/sph/include/shammodels/sph/BasicSPHGhosts.hpp: build_interface_native, communicate_pdat, build_comm_merge_positions, merge_native", "src/shammodels/sph/include/shammodels/sph/SPHUtilities.hpp: build_interf_cache", "src/shamrock/include/shamrock/patch/PatchField.hpp", "src/shamrock/include/shamrock/scheduler/SerialPatchTree.hpp: host_for_each_leafs"]}
{"id": "C58", "title": "The boundary conditions move every particle to its image in the box and change nothing else", "statement": "For periodic and shearing periodic boxes, every particle set, time and order of the work items: applying the position boundary does not fail while the counts of boxes fit in an int, and replaces each particle in place by its one image (in the lattice from which the ghosts are also built, with the velocity of that image) that lies in the half open box; particles already inside, and all particles of a free box, are unchanged; the set of images of each particle is unchanged. Every position of the box lies in exactly one patch, so the reattribution finds a home for each. In double precision each coordinate stays between the lower bound and the rounded sum of it and of the length of the box.", "quantifier": "all particles, boxes, shears, times, patches, scheduler histories and work item orders; all doubles for the rounded version", "why_tests_cant": "The wrap must be right for every position, any number of boxes away and across sheared faces and corners, and stay in the half open box under rounding; a test samples a few positions.", "anchors": ["src/shamrock/src/math/integrators.cpp: sycl_position_modulo, sycl_position_sheared_modulo", "src/shamrock/include/shamrock/scheduler/SchedulerUtility.hpp: fields_apply_periodicity, fields_apply_shearing_periodicity", "src/shammodels/sph/src/Solver.cpp: apply_position_boundary", "src/shammodels/gsph/src/Solver.cpp: apply_position_boundary", "src/shammodels/sph/include/shammodels/sph/Solver.hpp: gen_ghost_handler"]}
{"id": "C59", "title": "Splitting and merging the blocks of the AMR grid keeps the tiling and the conserved quantities", "statement": "For every refinement criterion, every set of blocks in a patch, every schedule of the kernel that computes the merge flags in place and every order of the other kernels' work items: a group of eight blocks is merged only if all eight exist, all asked for it, none of them is split and they are the eight octants of a box; the change of the grid does not fail, each point of space is in as many blocks after as before (a tiling stays a tiling of the same region), and the totals of mass, momentum and energy are unchanged, when no two such groups overlap. On blocks in Morton order the field has the same value at every point of space, each split block is replaced by its eight halves, and no block is ever merged. The base grid at the origin tiles the domain given to the scheduler.", "quantifier": "all criteria, block sets, schedules and orders of work items, fields, grid sizes", "why_tests_cant": "The merge flags are read and overwritten by concurrent work items and the criterion and grids are unbounded; a test runs one schedule on one small grid.", "anchors": ["src/shammodels/ramses/src/modules/AMRGridRefinementHandler.cpp: gen_refine_block_changes_old, internal_refine_grid_old, internal_derefine_grid_old, update_refinement_old", "src/shamrock/include/shamrock/amr/AMRCell.hpp: get_split, get_merge, are_mergeable", "src/shammodels/ramses/src/modules/AMRSetup.cpp: CellGenIterator, make_base_grid"]}
{"id": "C60", "title": "The 2:1 balance of the AMR grid is enforced inside each patch whatever the schedule", "statement": "For every patch (any blocks, levels of a 64 bit grid, and the graph of the blocks that touch), every set of blocks which ask to be split or merged, every interleaving of the work items of each sweep and every order of the others: the enforcement ends before its bound of 100 sweeps without failing; the blocks which are split are exactly those asked for and the coarser blocks which the rule then forces, independently of the schedule; only octets of blocks of one level, in the order of the octree, which all asked for it are merged, none of them split and none at the coarsest level; and if the levels of the blocks of the patch that touch differed by at most one, they still do after the change.", "quantifier": "all patches, levels, graphs, requests, interleavings and orders of work items", "why_tests_cant": "The flags spread through concurrent sweeps over graphs of any size and depth; a test sees one schedule of one small grid.", "anchors": ["src/shammodels/ramses/src/modules/AMRGridRefinementHandler.cpp: enforce_two_to_one_refinement_new, enforce_two_to_one_derefinement_new, update_refinement_new"]}
{"id": "C61", "title": "evolve_until stops at the target, or at the limit it names, after steps that respect the CFL condition", "statement": "For every target time, limits of iterations and of wall time, time of departure, sequence of time steps proposed by the CFL condition and sequence of readings of the clock (finite nonnegative doubles below 2^999): evolve_until never raises its exception; each step starts before the target, follows the previous one, is never longer than the time step proposed, and ends at most one double past the target (never past it, and exactly at it when the proposed step would pass it, from half the target on); exactly one reason is returned and it is true (target: the time is at least the target and at most one double past it; iterations: exactly niter_max steps were done, one if it is 0; wall time: the first reading at or above the limit); iter_count is the number of steps; the call returns whenever iterations are limited and wall time is not, and without limits as soon as the time steps proposed stay above two spacings of doubles at the target, within a bound on the number of steps; without a limit of wall time there is no undefined behaviour before 2^31 - 1 iterations.", "quantifier": "all targets, limits, times of departure, sequences of time steps and of clock readings, in IEEE double arithmetic", "why_tests_cant": "The loop runs on rounded doubles for any number of steps chosen by the physics; the exceptional roundings and the overflow of the check counter do not show up in short runs.", "anchors": ["src/shammodels/sph/include/shammodels/sph/Solver.hpp: evolve_until, EvolveUntilResults", "src/shammodels/sph/src/Solver.cpp: evolve_once (set_time, set_next_dt)"]}

{"id": "C01", "title": "Every element of a map-distributed array has exactly one owner", "statement": "For an array distributed by per-dimension block maps, every subscript inside the array bounds lies in the block reported by the distribution query of exactly one process rank, and no rank's block reaches outside the array.", "quantifier": "all dimensions counts, all array extents, all block maps that start at 1 and are non-decreasing (empty blocks allowed), all process counts, all subscripts", "why_tests_cant": "A test enumerates a few shapes; the claim is about every shape/map/process count, including empty blocks.", "anchors": ["global/src/base.c:pnga_distribution", "global/src/base.h:ga_ownsM_no_handle", "global/src/base.h:ga_ownsM"]}
{"id": "C02", "title": "Locate agrees with the distribution query", "statement": "Locating a subscript succeeds exactly when the subscript is inside the array, and then returns the rank whose distribution block contains it, whatever starting guess the floating-point scale factor produces.", "quantifier": "all map-distributed arrays, all subscripts, all values the floating-point guess may take", "why_tests_cant": "The search starts from a rounded floating-point guess; tests cannot cover every rounding outcome.", "anchors": ["global/src/base.c:pnga_locate", "global/src/base.c:findblock"]}
{"id": "C03", "title": "Default distribution is a valid partition", "statement": "When the user gives no explicit distribution, creating an array with any extents, any chunk hints and any number of processes yields block maps that start at 1, strictly increase and stay inside the extent; the number of blocks never exceeds the number of processes; and the scratch buffer that holds the maps is never overrun.", "quantifier": "all dimension vectors, chunk vectors and process counts", "why_tests_cant": "The block shape comes from a factorisation heuristic over the process count; a test can sample only a few counts.", "anchors": ["global/src/base.c:pnga_allocate", "global/src/decomp.c:ddb_h2"]}
{"id": "C04", "title": "Process-grid decomposition uses every process", "statement": "The processor grid chosen by the automatic decomposition always multiplies out to exactly the number of processes available, and every grid extent is positive.", "quantifier": "all process counts >= 1, all dimension vectors, any outcome of the load-balance heuristic", "why_tests_cant": "Depends on a sieve over all divisors of the process count.", "anchors": ["global/src/decomp.c:ddb_h2", "global/src/base.c:pnga_allocate"]}
{"id": "C05", "title": "Region location tiles the requested patch", "statement": "For a map-distributed array, the pieces returned by locating a valid region are pairwise disjoint, each lies inside the block of the process it is attributed to, and together they are exactly the requested region; the call fails exactly when the region is not inside the array.", "quantifier": "all map-distributed arrays, all lower/upper corners", "why_tests_cant": "Needs all region/block alignments in all dimensions.", "anchors": ["global/src/base.c:pnga_locate_region"]}
{"id": "C06", "title": "Block-cyclic arrays: every element is in exactly one block and one process", "statement": "For simple block-cyclic arrays every in-range subscript lies in exactly one block; locating it returns that block; and blocks are dealt to processes so that each block has one home process.", "quantifier": "all extents, block sizes, process counts and subscripts", "why_tests_cant": "Universal over shapes and block sizes including ragged last blocks.", "anchors": ["global/src/base.c:pnga_locate", "global/src/base.c:pnga_distribution", "global/src/base.c:pnga_set_block_cyclic", "global/src/base.h:gam_find_block_indices"]}
{"id": "C07", "title": "Process-grid (ScaLAPACK / tiled) arrays: blocks map to one process and one local slot", "statement": "For grid block-cyclic arrays every in-range subscript lies in exactly one block, each block belongs to exactly one process of the grid, and the set of block indices of a process are those congruent to its grid position.", "quantifier": "all extents, block sizes, process grids and subscripts", "why_tests_cant": "Universal over grids, including grids that do not divide the number of blocks.", "anchors": ["global/src/base.c:pnga_set_block_cyclic_proc_grid", "global/src/base.c:pnga_set_tiled_proc_grid", "global/src/base.h:gam_find_proc_from_sl_indices", "global/src/base.h:gam_find_tile_proc_from_indices"]}
{"id": "C08", "title": "Region location on block-cyclic arrays covers the region", "statement": "Locating a region of a block-cyclic array returns every block that holds part of the region.", "quantifier": "all block-cyclic arrays, all in-range regions", "why_tests_cant": "Depends on the position of the region relative to block boundaries, including a region strictly inside a block.", "anchors": ["global/src/base.c:pnga_locate_region", "global/src/base.c:pnga_locate_nnodes", "global/src/base.c:pnga_locate_num_blocks"]}
{"id": "C09", "title": "Region location on grid block-cyclic arrays names the right blocks", "statement": "Locating a region of a ScaLAPACK/tiled array attributes each returned piece to the block index whose bounds it reports.", "quantifier": "all grid block-cyclic arrays, all in-range regions", "why_tests_cant": "Wrong radix in an index computation is invisible on square block grids.", "anchors": ["global/src/base.c:pnga_locate_region"]}
{"id": "C10", "title": "Distribution comparison is sound", "statement": "If two arrays are reported as having the same distribution then every process owns the same index range in both; for block-type arrays, all blocks have the same index ranges and are assigned to the same processes.", "quantifier": "all pairs of arrays of the same distribution type", "why_tests_cant": "Pairs of distributions form a product space; corner cases with empty blocks are not sampled.", "anchors": ["global/src/base.c:pnga_compare_distr"]}
{"id": "C100", "title": "NGA_Sprs_array_create_from_dense makes the sparse matrix of a dense array", "statement": "For a global array with two dimensions, NGA_Sprs_array_create_from_dense makes a sparse matrix with exactly one element at each place whose value is not zero or which is on the diagonal, and the value is that of the array.", "quantifier": "all numbers of processes, sizes, distributions with or without ghost cells, values and both interfaces", "why_tests_cant": "Each process scans its own part of the array with a leading dimension that it computes from the bounds; parts without elements, ghost cells and empty rows depend on the distribution. Tests use a plain array with the default distribution.", "anchors": ["global/src/sparse.array.c:3222-3278", "global/src/sparse.array.c:3290-3373"]}
{"id": "C101", "title": "NGA_Sprs_array_create_from_sparse makes the dense array of a sparse matrix", "statement": "For a sparse matrix with at most one element per place, NGA_Sprs_array_create_from_sparse makes a global array of the same shape whose elements are the values of the matrix, and zero where it has no element. No memory outside of the array is written.", "quantifier": "all numbers of processes, shapes and matrices, and both interfaces", "why_tests_cant": "The distribution of the new array is given by a map that is put together with a global sum, and elements are copied by computed offsets; errors only show for matrices that are not square or in the other interface. The test uses a square matrix from C.", "anchors": ["global/src/sparse.array.c:3386-3516", "global/src/base.c:1731-1772"]}
{"id": "C102", "title": "NGA_Sprs_array_sprsdns_multiply makes the product of a sparse matrix and a dense array", "statement": "For a sparse matrix A with as many columns as the dense array B has rows, NGA_Sprs_array_sprsdns_multiply(A,B) makes a global array whose element (i,j) is the sum of A(i,k)*B(k,j) over all elements of row i of A. No memory outside of the arrays and buffers is used.", "quantifier": "all numbers of processes, shapes, matrices, arrays and both interfaces", "why_tests_cant": "Each process reads blocks of B into a buffer and adds into its own part of C by computed offsets; errors only show for shapes where B is not square, in the other interface, or for processes that miss a block of A. The test uses square matrices from C.", "anchors": ["global/src/sparse.array.c:3594-3840", "global/src/base.c:1731-1772"]}
{"id": "C103", "title": "NGA_Sprs_array_dnssprs_multiply makes the product of a dense array and a sparse matrix", "statement": "For a dense array A with as many columns as the sparse matrix B has rows, NGA_Sprs_array_dnssprs_multiply(A,B) makes a global array whose element (i,j) is the sum of A(i,k)*B(k,j) over all elements of column j of B. No memory outside of the arrays and buffers is used.", "quantifier": "all numbers of processes, shapes, matrices, arrays, real and complex types and both interfaces", "why_tests_cant": "Each process gets every block of B and the matching block of A and adds into its own part of C by computed offsets; errors only show for matrices that are not square or for complex arrays in the other interface. The test uses square matrices from C.", "anchors": ["global/src/sparse.array.c:3844-4209", "global/src/sparse.array.c:2186-2265", "global/src/sparse.array.c:889-919"]}
{"id": "C104", "title": "NGA_Sprs_array_export writes every element of a sparse matrix once", "statement": "After a sparse matrix was assembled, NGA_Sprs_array_export writes exactly one line for each of its elements, with its row and column counted from 1 and its value. No memory outside of the arrays and buffers is used.", "quantifier": "all numbers of processes, shapes, matrices, types and distributions of the elements", "why_tests_cant": "Process 0 walks through the copied index tables of every process with offsets that it computes itself, and these only differ from zero for processes with more than one block. No test reads an exported file, and none exports a complex matrix or one with empty processes.", "anchors": ["global/src/sparse.array.c:1363-1587", "global/src/base.c:4658-4697", "global/src/iterator.c:188-217"]}
{"id": "C105", "title": "Sparse arrays use only memory that they have, and destroying them gives all of it back", "statement": "In any sequence of NGA_Sprs_array_create, add_element, assemble, duplicate, matmat_multiply and destroy calls on existing handles, no memory is used or freed after it was freed, nothing is written behind a buffer however many elements are added, new handles differ from those in use, a call for which there is no room ends with an error, and after all arrays were destroyed or GA_Terminate was called no memory remains allocated.", "quantifier": "all sequences of allowed calls, numbers of arrays, elements and blocks, and all sizes of the table", "why_tests_cant": "Entries of the table are used again with what earlier arrays left in them, and buffers are taken over, replaced or dropped by five functions; tests make a few arrays once, and neither lost memory nor a full table is visible to them.", "anchors": ["global/src/sparse.array.c:80-123", "global/src/sparse.array.c:134-228", "global/src/sparse.array.c:503-554", "global/src/sparse.array.c:777-782", "global/src/sparse.array.c:1314-1351", "global/src/sparse.array.c:2082-2170", "global/src/sparse.array.c:2678-2728"]}
{"id": "C106", "title": "Work buffers are aligned, do not overlap, and are given back exactly as they were obtained", "statement": "The buffers that GA takes for its own work from the MA stack, or from the functions given to GA_Register_stack_memory, are aligned to 16 bytes, hold the requested number of elements of any GA type, do not overlap, and can be filled completely; freeing one gives back exactly the memory that was obtained for it, at the address at which it was obtained, also if the functions are registered in between.", "quantifier": "all sequences of allocations, writes into buffers and frees; all element sizes, numbers of elements and addresses chosen by the allocator", "why_tests_cant": "The adjustment depends on the address the allocator returns, and common allocators always return aligned ones; a header that is overwritten or a block that is too small by a few bytes usually goes unnoticed.", "anchors": ["global/src/ga_malloc.c:13-26", "global/src/ga_malloc.c:29-68", "global/src/ga_malloc.c:70-80", "ma/ma.c:3104-3147"]}
{"id": "C107", "title": "A copy of a sparse matrix is like the original", "statement": "After NGA_Sprs_array_duplicate of an assembled sparse matrix, the copy has the same elements, every process reads the same blocks and rows from it, and NGA_Sprs_array_row_distribution and NGA_Sprs_array_column_distribution answer for the copy as for the original, whichever group is the default group at the time of the call.", "quantifier": "all assembled matrices, sizes, numbers of processes and default groups", "why_tests_cant": "Tests copy matrices while the world is the default group, where a field that is set from the default group and not copied has the right value.", "anchors": ["global/src/sparse.array.c:134-167", "global/src/sparse.array.c:889-956", "global/src/sparse.array.c:995-1067", "global/src/sparse.array.c:2082-2167"]}
{"id": "C11", "title": "The transfer iterator visits every element of a request exactly once", "statement": "For a map-distributed array, the sequence of (process, sub-range, address) triples used by put/get/accumulate covers every requested element exactly once, whatever random visiting order is drawn, and skips only empty ranges.", "quantifier": "all arrays, all regions none of whose one-element-thick slabs exceeds 2 GiB (see C46 for the others), all permutations of the process list", "why_tests_cant": "The visiting order is random per process.", "anchors": ["global/src/iterator.c:gai_iterator_init", "global/src/iterator.c:gai_iterator_next", "global/src/iterator.c:gaPermuteProcList"]}
{"id": "C12", "title": "The random visiting order is a permutation", "statement": "Whatever the random number generator returns, the visiting order used for remote operations contains every involved process exactly once.", "quantifier": "all random sequences, all list lengths", "why_tests_cant": "Random sequences cannot be enumerated.", "anchors": ["global/src/iterator.c:gaPermuteProcList", "global/src/onesided.c:gaPermuteProcList"]}
{"id": "C13", "title": "The block-cyclic transfer iterator visits every element exactly once", "statement": "For a simple block-cyclic array, put/get visit every requested element exactly once and address it at its home process.", "quantifier": "all block-cyclic arrays (any number of blocks relative to processes), all regions, all calling ranks", "why_tests_cant": "Requires configurations with fewer blocks than processes and calls from non-zero ranks.", "anchors": ["global/src/iterator.c:gai_iterator_next", "global/src/iterator.c:gai_iterator_init", "global/src/iterator.c:gai_iterator_reset"]}
{"id": "C14", "title": "The grid block-cyclic transfer iterator visits every element exactly once", "statement": "For ScaLAPACK and tiled arrays, put/get visit every requested element exactly once and never produce an inverted range.", "quantifier": "all grid arrays, all process grids, all regions", "why_tests_cant": "Requires grids larger than the number of blocks along some dimension.", "anchors": ["global/src/iterator.c:gai_iterator_next"]}
{"id": "C15", "title": "Distinct elements never share storage (map-distributed)", "statement": "Two different elements of a map-distributed array (with or without ghost cells) live at different (process, offset) positions, and each offset is inside the memory allocated for that process.", "quantifier": "all arrays, ghost widths and pairs of elements", "why_tests_cant": "Quantifies over pairs of elements in all shapes.", "anchors": ["global/src/iterator.c:gam_Location", "global/src/base.h:gam_Loc_ptr", "global/src/base.c:pnga_allocate"]}
{"id": "C16", "title": "Distinct elements never share storage (block-cyclic, ScaLAPACK, tiled)", "statement": "Two different elements of a block-cyclic, ScaLAPACK or tiled array live at different (process, offset) positions, and each offset is inside the memory allocated for that process.", "quantifier": "all arrays, block sizes, grids and pairs of elements", "why_tests_cant": "Quantifies over pairs of elements in all shapes including ragged edges.", "anchors": ["global/src/iterator.c:gai_iterator_next", "global/src/base.c:pnga_allocate"]}
{"id": "C17", "title": "Direct block access agrees with one-sided transfers", "statement": "The pointer handed out for direct access to a block of a grid block-cyclic array designates the same storage that put and get use for the elements of that block.", "quantifier": "all grid arrays, all block indices", "why_tests_cant": "Two independent address computations have to agree for every grid.", "anchors": ["global/src/onesided.c:pnga_access_block_grid_ptr", "global/src/onesided.c:pnga_access_block_ptr", "global/src/iterator.c:gai_iterator_next"]}
{"id": "C18", "title": "Put writes exactly the requested region (map-distributed)", "statement": "After a put of a region from a user buffer with leading dimensions, every element of the region holds the corresponding buffer element and every other element of every array is unchanged.", "quantifier": "all map-distributed arrays (ghost cells, groups, restricted arrays, empty blocks), all regions, buffers and leading dimensions whose byte counts and byte strides fit a C int, all visiting and completion orders", "why_tests_cant": "Functional correctness over all shapes, regions and strides.", "anchors": ["global/src/onesided.c:ngai_put_common", "global/src/onesided.c:pnga_put"]}
{"id": "C19", "title": "Get returns exactly the requested region (map-distributed)", "statement": "After a get, the buffer positions that correspond to the region hold the array values and all other buffer positions (gaps between leading-dimension strides) are unchanged.", "quantifier": "all map-distributed arrays, regions, buffers and leading dimensions whose byte counts and byte strides fit a C int, all visiting and completion orders", "why_tests_cant": "Functional correctness over all shapes, regions and strides.", "anchors": ["global/src/onesided.c:ngai_get_common", "global/src/onesided.c:pnga_get"]}
{"id": "C20", "title": "Get after put returns what was put (map-distributed)", "statement": "Reading any region after a completed put of an overlapping region returns the put values on the overlap and the previous values elsewhere.", "quantifier": "all pairs of region operations on any map-distributed array", "why_tests_cant": "Universal over pairs of regions.", "anchors": ["global/src/onesided.c:pnga_put", "global/src/onesided.c:pnga_get"]}
{"id": "C21", "title": "Accumulate adds exactly once (map-distributed)", "statement": "An accumulate adds alpha times the buffer element to every element of the region exactly once and leaves all other elements unchanged.", "quantifier": "all map-distributed arrays, regions, buffers, element types and scale factors", "why_tests_cant": "Duplicated or skipped pieces show up only in particular alignments.", "anchors": ["global/src/onesided.c:ngai_acc_common", "global/src/onesided.c:pnga_acc"]}
{"id": "C22", "title": "Concurrent accumulates are order independent (map-distributed)", "statement": "If several processes accumulate into arbitrary (overlapping) regions with no intervening put, then after all complete every element equals its initial value plus the sum of all contributions, for every interleaving of the element updates.", "quantifier": "all numbers of calls, all regions, all interleavings of element updates, any addition with (a+b)+c = (a+c)+b", "why_tests_cant": "The number of interleavings is unbounded.", "anchors": ["global/src/onesided.c:pnga_acc"]}
{"id": "C23", "title": "Concurrent puts to disjoint regions do not interfere (map-distributed)", "statement": "If concurrent puts address pairwise disjoint regions, the final contents are the same for every interleaving and equal to applying the puts one after the other.", "quantifier": "all process counts, regions and interleavings", "why_tests_cant": "Interleavings are unbounded.", "anchors": ["global/src/onesided.c:pnga_put"]}
{"id": "C24", "title": "Read-and-increment hands out distinct tickets", "statement": "When any number of processes repeatedly apply read-and-increment with increment 1 to the same element, all returned values are distinct, contiguous from the initial value, and the final value is the initial value plus the number of calls.", "quantifier": "all interleavings of all call histories", "why_tests_cant": "A data race only shows under particular schedules.", "anchors": ["global/src/onesided.c:pnga_read_inc"]}
{"id": "C25", "title": "Read-and-increment adds the requested increment", "statement": "The element changes by exactly the increment passed to the call.", "quantifier": "all increments representable in the interface type", "why_tests_cant": "Truncation only shows for increments beyond 32 bits.", "anchors": ["global/src/onesided.c:pnga_read_inc"]}
{"id": "C26", "title": "Scatter and gather act elementwise", "statement": "Gather returns for every listed subscript the element of the array; scatter with distinct subscripts stores each value at its subscript and changes nothing else; scatter-accumulate adds each value once even when subscripts repeat.", "quantifier": "all arrays, all subscript lists", "why_tests_cant": "The per-process grouping (linked lists / counting) must be right for every distribution of subscripts over processes.", "anchors": ["global/src/onesided.c:gai_gatscat", "global/src/onesided.c:gai_gatscat_new", "global/src/onesided.c:pnga_gather", "global/src/onesided.c:pnga_scatter", "global/src/onesided.c:pnga_scatter_acc"]}
{"id": "C27", "title": "Strided transfers touch exactly the strided elements", "statement": "A strided put/get/accumulate with skips touches exactly the elements lo + k*skip inside the region and pairs the k-th of them with the k-th buffer position.", "quantifier": "all arrays, dimensions, regions, skip vectors", "why_tests_cant": "Needs three or more dimensions and regions split over processes at positions not aligned with the skip.", "anchors": ["global/src/onesided.c:pnga_strided_put", "global/src/onesided.c:pnga_strided_get", "global/src/onesided.c:gai_correct_strided_patch", "global/src/onesided.c:gai_ComputePatchIndexWithSkip"]}
{"id": "C28", "title": "Strided transfers work on process groups and from every rank", "statement": "A strided transfer addresses the process that owns the data, for arrays on process groups and for simple block-cyclic arrays, from any calling rank.", "quantifier": "all groups, all calling ranks", "why_tests_cant": "Configuration dependent.", "anchors": ["global/src/onesided.c:pnga_strided_put", "global/src/iterator.c:gai_iterator_init"]}
{"id": "C29", "title": "Periodic transfers wrap indices modulo the extents", "statement": "A periodic put/get of an accepted region transfers, for every index in the region, the array element at that index wrapped into the array bounds.", "quantifier": "all extents, all regions (including far outside the array)", "why_tests_cant": "Wrapping arithmetic for negative and multi-period offsets.", "anchors": ["global/src/global.periodic.c:ngai_peri_get_range_", "global/src/global.periodic.c:pnga_periodic"]}
{"id": "C30", "title": "Waiting on a non-blocking handle completes that operation", "statement": "After waiting on a non-blocking handle, every transfer issued under that handle is complete, whatever other non-blocking operations were started, waited for or recycled in between.", "quantifier": "all histories of non-blocking calls, waits, tests and forced recyclings, any handle pool size", "why_tests_cant": "Handle recycling needs long histories and a full pool.", "anchors": ["global/src/nbutil.c:nga_wait_internal", "global/src/nbutil.c:get_armci_nbhandle", "global/src/nbutil.c:ga_init_nbhandle"]}
{"id": "C31", "title": "A successful non-blocking test means completion", "statement": "If testing a non-blocking handle reports completion, every transfer issued under that handle is complete.", "quantifier": "all histories of non-blocking calls", "why_tests_cant": "Depends on list/count consistency over histories.", "anchors": ["global/src/nbutil.c:nga_test_internal"]}
{"id": "C32", "title": "The non-blocking handle pool never loses or duplicates requests", "statement": "At every moment each outstanding transfer is recorded under exactly one non-blocking operation and the number of outstanding transfers never exceeds the pool size.", "quantifier": "all histories", "why_tests_cant": "Linked-list surgery under recycling.", "anchors": ["global/src/nbutil.c:get_armci_nbhandle", "global/src/nbutil.c:nga_wait_internal", "global/src/nbutil.c:nga_test_internal"]}
{"id": "C33", "title": "Fence completes all earlier stores", "statement": "After init_fence, any stores, and fence, every store issued by the caller in between is complete at its target.", "quantifier": "all sequences of puts, accumulates and scatters between init_fence and fence", "why_tests_cant": "Missing bookkeeping for one operation kind shows only as a race.", "anchors": ["global/src/onesided.c:pnga_fence", "global/src/onesided.c:pnga_init_fence", "global/src/onesided.c:pnga_scatter2d"]}
{"id": "C34", "title": "Cached reads return current data", "statement": "For an array with the read-cache property that is not modified, get returns the array contents whether or not the region is served from the cache, for any leading dimension of the destination buffer.", "quantifier": "all histories of gets, all regions, all leading dimensions", "why_tests_cant": "Cache hits depend on history.", "anchors": ["global/src/onesided.c:pnga_get", "global/src/onesided.c:gai_mem_copy"]}
{"id": "C35", "title": "The read cache never touches freed memory", "statement": "No history of cached gets makes the cache bookkeeping use or free a released entry.", "quantifier": "all histories of gets", "why_tests_cant": "Memory errors need specific histories.", "anchors": ["global/src/onesided.c:pnga_get"]}
{"id": "C36", "title": "Put-with-notify leaves the source buffer intact", "statement": "A put-with-notify followed by its wait leaves the user's source buffer unchanged and the target holding the put data and the notify value.", "quantifier": "all regions and notify elements, in particular notify elements inside the region", "why_tests_cant": "Requires the overlapping case.", "anchors": ["global/src/onesided.c:pnga_nbput_notify", "global/src/onesided.c:pnga_nbwait_notify"]}
{"id": "C37", "title": "Live arrays have distinct handles", "statement": "Array creation never returns a handle of a live array, a destroyed handle becomes available again, and operations on one handle never change another array's descriptor.", "quantifier": "all histories of create, duplicate and destroy", "why_tests_cant": "Histories are unbounded.", "anchors": ["global/src/base.c:pnga_create_handle", "global/src/base.c:pnga_destroy", "global/src/base.c:pnga_duplicate"]}
{"id": "C38", "title": "Memory accounting is conserved", "statement": "With a memory limit in force, available memory always equals the limit minus the sizes of live arrays: failed allocations charge nothing, destroy returns exactly what allocation took.", "quantifier": "all histories of create/destroy, all sizes, all limits", "why_tests_cant": "Histories are unbounded.", "anchors": ["global/src/base.c:pnga_allocate", "global/src/base.c:pnga_deallocate", "global/src/base.c:pnga_destroy", "global/src/base.c:gai_getmem"]}
{"id": "C39", "title": "Changing the memory limit adjusts available memory consistently", "statement": "After any sequence of memory-limit changes the available memory equals the last limit minus the memory in use.", "quantifier": "all sequences of limit changes", "why_tests_cant": "Needs at least three successive changes.", "anchors": ["global/src/base.c:pnga_set_memory_limit"]}
{"id": "C40", "title": "Locks give mutual exclusion", "statement": "For every schedule, at most one process is between lock and unlock of a given mutex.", "quantifier": "all schedules, mutex counts, process counts", "why_tests_cant": "Schedules are unbounded.", "anchors": ["global/src/base.c:pnga_lock", "global/src/base.c:pnga_unlock", "global/src/base.c:pnga_create_mutexes"]}
{"id": "C41", "title": "Different mutexes are independent", "statement": "A process holding one mutex can acquire a different free mutex.", "quantifier": "all mutex counts, process counts and pairs of mutexes", "why_tests_cant": "Deadlock with nested locks needs a particular pattern.", "anchors": ["global/src/base.c:pnga_lock", "global/src/base.c:pnga_unlock"]}
{"id": "C42", "title": "Process-group rank translation is a bijection", "statement": "In a created process group, translating a group rank to an absolute rank and back gives the same rank, absolute ranks outside the group translate to 'not a member', and the group contains exactly the listed processes.", "quantifier": "all lists of processes, nested groups", "why_tests_cant": "Quantifies over all lists in any order.", "anchors": ["global/src/base.c:pnga_pgroup_create", "global/src/base.c:pnga_pgroup_absolute_id"]}
{"id": "C43", "title": "Group split partitions the processes", "statement": "Splitting a group assigns each process to exactly one subgroup and returns the requested number of subgroups.", "quantifier": "all group sizes and subgroup counts", "why_tests_cant": "Arithmetic corner cases for counts that do not divide the size.", "anchors": ["global/src/base.c:pnga_pgroup_split", "global/src/base.c:pnga_pgroup_split_irreg"]}
{"id": "C44", "title": "Irregular distribution requests are validated", "statement": "A user-specified irregular distribution is accepted only if every element of the array then has an owner.", "quantifier": "all user supplied maps", "why_tests_cant": "Arbitrary user input.", "anchors": ["global/src/base.c:pnga_set_irreg_distr", "global/src/base.c:pnga_set_tiled_irreg_proc_grid"]}
{"id": "C45", "title": "Type registration ids are stable", "statement": "Registering a user data type returns an id not used by any live type, preserves all other registrations, and size lookups return the registered size until deregistration.", "quantifier": "all histories of register/deregister", "why_tests_cant": "Histories are unbounded.", "anchors": ["global/src/base.c:pnga_register_type", "global/src/base.c:pnga_deregister_type"]}
{"id": "C46", "title": "Large requests are split without loss", "statement": "When a request is too large for the 32-bit byte counts of the transport it is split into sub-blocks that tile the request, each with byte counts that fit a signed 32-bit integer.", "quantifier": "all block shapes and element sizes", "why_tests_cant": "Needs multi-gigabyte requests.", "anchors": ["global/src/iterator.c:gai_iterator_next"]}
{"id": "C47", "title": "Strided memory copy visits the right segments", "statement": "The odometer-driven segment copy transfers exactly the elements of the described sub-array between source and destination, for any number of dimensions.", "quantifier": "all dimension counts, extents, strides", "why_tests_cant": "Odometer carry logic over all shapes.", "anchors": ["global/src/onesided.c:gai_mem_copy", "comex/src-mpi-pr/comex.c"]}
{"id": "C48", "title": "Put writes exactly the requested region (block-cyclic, ScaLAPACK, tiled)", "statement": "After a put to a block-cyclic, ScaLAPACK or tiled array every element of the region holds the corresponding buffer element and everything else is unchanged.", "quantifier": "all block-distributed arrays, regions, buffers and completion orders", "why_tests_cant": "Blocks of one process are visited by a hand-written odometer; errors show only for particular grids.", "anchors": ["global/src/onesided.c:ngai_put_common", "global/src/iterator.c:gai_iterator_next"]}
{"id": "C49", "title": "Get returns exactly the requested region (block-cyclic, ScaLAPACK, tiled)", "statement": "After a get from a block-cyclic, ScaLAPACK or tiled array the buffer holds the region and its gaps are unchanged.", "quantifier": "all block-distributed arrays, regions, buffers and completion orders", "why_tests_cant": "Same as C48.", "anchors": ["global/src/onesided.c:ngai_get_common", "global/src/iterator.c:gai_iterator_next"]}
{"id": "C50", "title": "Concurrent accumulates on block-distributed arrays", "statement": "After any number of concurrent accumulates into a block-distributed array every element holds its initial value plus all contributions.", "quantifier": "all block-distributed arrays, numbers of calls, regions, interleavings", "why_tests_cant": "Interleavings are unbounded.", "anchors": ["global/src/onesided.c:ngai_acc_common", "global/src/iterator.c:gai_iterator_next"]}
{"id": "C51", "title": "Transfers work for local blocks of any size", "statement": "A put or get of a small region works however large the local blocks of the array are.", "quantifier": "all map-distributed arrays", "why_tests_cant": "Needs local blocks with planes of more than 2 GiB.", "anchors": ["global/src/onesided.c:gam_setstride", "global/src/onesided.c:ngai_put_common"]}
{"id": "C52", "title": "Direct access to a patch of a map-distributed array", "statement": "Access to a patch lying in one block of a process on the caller's node returns a pointer and leading dimensions that designate exactly the storage put and get use for the elements of the patch; any other patch is refused.", "quantifier": "all map-distributed arrays (ghost cells, groups, restricted process lists), all patches", "why_tests_cant": "The tests access only whole local blocks obtained from the distribution query.", "anchors": ["global/src/onesided.c:pnga_access_ptr"]}
{"id": "C53", "title": "Index access agrees with pointer access", "statement": "The index-returning and the pointer-returning access call accept the same patches and designate the same storage.", "quantifier": "all map-distributed arrays, all patches", "why_tests_cant": "No test uses index access on an array restricted to a subset of processes.", "anchors": ["global/src/onesided.c:pnga_access_idx", "global/src/onesided.c:pnga_access_ptr"]}
{"id": "C54", "title": "Strided transport delivers exactly the described bytes", "statement": "A strided put, get or accumulate of the ComEx transport transfers exactly the bytes (elements) of the count/stride description, whichever algorithm is chosen: direct copy per segment, packed message, packed message in chunks, MPI data type; memory outside the described segments is unchanged.", "quantifier": "all strided descriptions, all settings (eager threshold, maximal message size, enabled algorithms), target on the same or another node", "why_tests_cant": "The algorithm depends on the placement of processes, environment variables and size; tests usually run on one node.", "anchors": ["comex/src-mpi-pr/comex.c:nb_puts", "comex/src-mpi-pr/comex.c:nb_gets", "comex/src-mpi-pr/comex.c:nb_accs", "comex/src-mpi-pr/comex.c:pack", "comex/src-mpi-pr/comex.c:unpack", "comex/src-mpi-pr/comex.c:strided_to_subarray_dtype"]}
{"id": "C55", "title": "Unsetting a property makes the array ordinary again", "statement": "After unset_property on an array with the read-cache property, gets return the current contents of the array although other processes modify it.", "quantifier": "all histories of gets before and after, all modifications", "why_tests_cant": "The stale value appears only after unset, get, modification and the same get again.", "anchors": ["global/src/base.c:pnga_unset_property", "global/src/base.c:pnga_set_property", "global/src/onesided.c:pnga_get"]}
{"id": "C56", "title": "Sync completes all stores", "statement": "After a sync every store of any kind issued by the caller before it is complete at its target; after a sync of a group, every store to its members.", "quantifier": "all histories of stores, gets, fences and syncs, all choices of the servers' progress", "why_tests_cant": "Whether a store is late depends on message timing; tests sync with barriers that hide it.", "anchors": ["global/src/onesided.c:pnga_sync", "global/src/onesided.c:pnga_pgroup_sync", "comex/src-mpi-pr/comex.c:comex_fence_all", "comex/src-mpi-pr/comex.c:comex_fence_proc"]}
{"id": "C57", "title": "Stores to one process arrive in order and are read back", "statement": "The stores of one process to another arrive in the order in which they were issued, each once, and a get by the same process sees all of its earlier stores, whether made by message or directly through shared memory.", "quantifier": "all histories of stores and gets mixing direct and message transfers, all choices of the servers' progress", "why_tests_cant": "Reordering needs a direct access overtaking a queued message.", "anchors": ["comex/src-mpi-pr/comex.c:nb_put", "comex/src-mpi-pr/comex.c:nb_get", "comex/src-mpi-pr/comex.c:nb_acc", "comex/src-mpi-pr/comex.c:_fence_master"]}
{"id": "C58", "title": "Put-with-notify handles are independent", "statement": "With at most 100 put-with-notify operations outstanding under different handles, no call fails and waiting on a handle waits for exactly the two transfers of the operation issued with it.", "quantifier": "all histories of put-with-notify and its wait", "why_tests_cant": "Needs many outstanding operations completed in arbitrary order.", "anchors": ["global/src/onesided.c:pnga_nbput_notify", "global/src/onesided.c:pnga_nbwait_notify"]}
{"id": "C59", "title": "Every process gets a progress rank on its own node", "statement": "At start-up, for any number of progress ranks per node accepted by the library and either way of arranging them, each process gets one progress rank on its own node; progress ranks serve themselves only as servers; each node has the requested number of them and they share the processes of the node evenly; node sizes that do not allow this are reported. Initialisation touches no memory outside its tables.", "quantifier": "all placements of any number of processes on nodes (also nodes of different size), all numbers of progress ranks, packed and cyclic arrangement", "why_tests_cant": "Tests run on one node, with one progress rank and consecutive ranks; placements by round robin and several progress ranks per node appear only on clusters.", "anchors": ["comex/src-mpi-pr/groups.h:62-155", "comex/src-mpi-pr/groups.c:408-598"]}
{"id": "C60", "title": "Progress ranks are told once of all memory they serve", "statement": "When a group allocates memory collectively, each progress rank that serves a member gets exactly one message, sent by a member, with exactly the members it serves that have memory; each member also knows the memory of the members that share its progress rank; no table is overrun.", "quantifier": "all placements, groups, sizes (zero included), numbers and arrangements of progress ranks", "why_tests_cant": "A missing message shows only as a failed lookup in a later access from another node, and only for groups that are not the whole world with several progress ranks per node.", "anchors": ["comex/src-mpi-pr/comex.c:2361-2600", "comex/src-mpi-pr/comex.c:4915-4965"]}
{"id": "C61", "title": "Destroying mutexes gives back the mutexes of every process", "statement": "comex_destroy_mutexes reads only the table that comex_create_mutexes made, tells the progress rank the number of mutexes of the process for which it speaks, and gives back the mutexes of all processes.", "quantifier": "all placements, numbers of mutexes per process and processes", "why_tests_cant": "The wrong index is harmless on one node, where tests run; reading beyond a small heap block seldom crashes.", "anchors": ["comex/src-mpi-pr/comex.c:2197-2284", "comex/src-mpi-pr/comex.c:4510-4551"]}
{"id": "C62", "title": "Servers and neighbours translate remote addresses to the right memory", "statement": "After any sequence of collective allocations and frees by groups, a server, and a process that shares a server and a group with the owner, translates every access inside live memory of a process to the right memory object and offset, and refuses every other access; frees remove exactly the freed memory; registering memory that overlaps live memory is refused.", "quantifier": "all sequences of allocations and frees, group sizes and sizes per member (zero included), addresses and lengths, placements with consecutive ranks", "why_tests_cant": "A stale or missing cache entry shows only when a later allocation reuses the address or an access takes the server path; tests run on one node where most accesses bypass the server.", "anchors": ["comex/src-mpi-pr/reg_cache.c:60-560", "comex/src-mpi-pr/comex.c:2361-2820", "comex/src-mpi-pr/comex.c:4818-5080"]}
{"id": "C63", "title": "Enumeration fills exactly the given range", "statement": "ga_patch_enum on a one-dimensional array gives element x of the range lo..hi the value start + (x - lo) * stride and leaves every other element unchanged, whichever process owns it and in whatever order the processes run.", "quantifier": "all one-dimensional block maps (restricted arrays included), ranges, values and process orders", "why_tests_cant": "The offset of a value depends on where the range meets each block; tests use one or two distributions and mostly the whole array.", "anchors": ["global/src/sparse.c:27-83"]}
{"id": "C64", "title": "Scan copy gives every element the value at the last set mask element", "statement": "ga_scan_copy gives element x of lo..hi the source value at the last subscript in lo..x whose mask is set, or zero if there is none, and leaves the other elements unchanged.", "quantifier": "all block maps, masks, sources, ranges and process orders", "why_tests_cant": "The value may come from any earlier process (with restricted arrays in any rank order); tests cannot cover the combinations of mask and distribution.", "anchors": ["global/src/sparse.c:90-221"]}
{"id": "C65", "title": "Scan add is a segmented sum over the mask", "statement": "ga_scan_add gives element x of lo..hi the sum of the source from the last set subscript j in lo..x to x (to x-1 if exclusive) and leaves elements with no set subscript before them, and those outside the range, unchanged.", "quantifier": "all block maps, masks, sources, ranges, process orders and additions that are associative and commutative with zero", "why_tests_cant": "Segments may cross any number of processes; the carry is gathered from other processes between two synchronisations.", "anchors": ["global/src/sparse.c:227-454"]}
{"id": "C66", "title": "Pack and unpack keep the set elements in order", "statement": "ga_pack writes the source elements with set mask in lo..hi, in order, to the first elements of the destination and returns their number; ga_unpack writes them back to the set subscripts; other elements are unchanged; packing then unpacking gives back the set elements; if the packed array is too small an error is reported.", "quantifier": "all block maps, masks, sources, ranges, extents of the packed array and process orders", "why_tests_cant": "The place of the elements of a process depends on the counts of all processes before it in the distribution, not in rank order.", "anchors": ["global/src/sparse.c:457-695"]}
{"id": "C67", "title": "Binning gives every bin the values of all processes", "statement": "After ga_bin_index by all processes, every bin of the array holds exactly the values that the processes gave for it, process after process in one order, and no other element has changed; the segments of the processes in a bin fill it without overlap.", "quantifier": "all numbers of processes, bins, contributions, layouts of bins, orders of the puts and states left by earlier calls", "why_tests_cant": "Places come from a sum over a binary tree of processes whose shape depends on their number, and from a buffer that survives the call; tests call it once on few processes.", "anchors": ["global/src/sparse.c:699-744", "global/src/sparse.c:902-960", "comex/src-armci/message.c:543-561"]}
{"id": "C68", "title": "The heap sort permutes and sorts, and a scatter reaches every process once", "statement": "The heap sort leaves the same elements, sorted by key, and touches nothing else; ga_scatter_acc on two-dimensional arrays therefore sends every entry exactly once to its own process, with one message group per process, and does not change the arrays of the caller.", "quantifier": "all numbers of entries, keys, values, subscripts and element types", "why_tests_cant": "Sorting is right or wrong by structure (odd and even lengths, ties, depth of the heap); wide subscripts with int values need arrays beyond the size of tests.", "anchors": ["global/src/hsort.scat.c:23-57", "global/src/hsort.scat.c:62-279", "global/src/onesided.c:2678-2739"]}
{"id": "C69", "title": "The walk over local blocks hands each process its elements exactly once", "statement": "The local iterator used by fill, copy, select and the elementwise operations hands a process non-empty blocks that contain exactly the elements stored in its memory, each once, with a pointer and leading dimensions that find every element at its place; a process without elements gets no block.", "quantifier": "all arrays, distributions, process grids, processes", "why_tests_cant": "Needs process grids larger than the grid of blocks in some dimension but the last, and an element-by-element comparison with where put and get store the data.", "anchors": ["global/src/iterator.c:788-843", "global/src/iterator.c:854-929", "global/src/onesided.c:1499-1829"]}
{"id": "C70", "title": "Selecting an extreme element returns an element and its own subscript", "statement": "ga_select_elem returns the largest (smallest) element of the array, a subscript at which the array has this element, and for complex arrays the element itself.", "quantifier": "all arrays, contents, distributions, element types and both operators", "why_tests_cant": "The subscript is wrong only when one block leaves a position behind and a later block has its extreme at its first element; results of processes without data depend on the stack.", "anchors": ["global/src/select.c:17-454", "comex/src-armci/message.c:255-324", "global/src/iterator.c:854-929"]}
{"id": "C71", "title": "Updating ghost cells copies the owners' elements into every ghost cell", "statement": "After ga_update_ghosts, every ghost cell of every process, corners included, holds the value its element (with periodic wrap at the ends of the array) had at its owner; the elements themselves and all other memory are as before, and the update ends.", "quantifier": "all arrays with ghost cells: dimensions, distributions, ghost widths, processes and contents", "why_tests_cant": "Needs blocks of unequal size, one narrower than the ghost region, arrays on groups, and duplicated arrays; a wrong entry of the message table shows as a hang or as a write into other memory.", "anchors": ["global/src/ghosts.c:780-803", "global/src/ghosts.c:978-1045", "global/src/ghosts.c:1298-1678", "global/src/ghosts.c:1686-1934", "global/src/base.c:2762-2774", "global/src/base.c:3798-3838"]}
{"id": "C72", "title": "The corner flag decides which ghost cells an update fills", "statement": "With the corner flag off, ga_update_ghosts fills the ghost cells that lie outside the block of the process in one dimension only and leaves the other ghost cells alone; with the flag on it fills all of them. The flag may be chosen before or after the array is allocated.", "quantifier": "all arrays with ghost cells, both flags, all contents", "why_tests_cant": "A flag that is ignored only causes extra writes to corner cells that most programs never look at.", "anchors": ["global/src/ghosts.c:4381-4392", "global/src/ghosts.c:1413-1672", "global/src/base.c:2762-2774"]}
{"id": "C73", "title": "The ghost update cannot deadlock and does not depend on timing", "statement": "ga_update_ghosts ends on every process in every interleaving of the processes and of message delivery, even if the message layer never buffers a message (a send waits for its receive); every run leaves the same memory, the one in which the ghost cells are filled, and no message is left over.", "quantifier": "all arrays with ghost cells, all process grids (odd and even numbers of blocks in each dimension), all interleavings", "why_tests_cant": "Deadlocks depend on the parity of the process grid, on the message size and on how much the message layer buffers; a test sees one grid, one library and one timing.", "anchors": ["global/src/ghosts.c:1686-1934", "global/src/base.c:4478-4491"]}
{"id": "C74", "title": "Blocks of the memory allocator never overlap", "statement": "After any sequence of MA_allocate_heap, MA_free_heap, MA_free_heap_piece, MA_push_stack, MA_pop_stack, MA_chop_stack and MA_set_numalign calls, the blocks the program has lie in the segment with their guard words, are aligned to the base arrays so that MA_get_index leads to MA_get_pointer, overlap neither each other nor the descriptors of the allocator; the pointer of a block does not change while the program has it; and every call succeeds exactly if its handle names a block of the right kind.", "quantifier": "all sequences of calls, all datatypes, numbers of elements and alignments", "why_tests_cant": "The result depends on the history of the heap: which holes exist, in which order blocks were freed, how they were aligned and split.", "anchors": ["ma/ma.c:617-840", "ma/ma.c:1949-2271", "ma/ma.c:3104-3361", "ma/table.c:81-268"]}
{"id": "C75", "title": "The memory allocator refuses only what does not fit", "statement": "MA_allocate_heap refuses a block only if no stretch of the segment free of blocks in use can hold it; MA_push_stack refuses a block only if it does not fit between heap and stack; when the program has released all its blocks, all of the memory is available again.", "quantifier": "all sequences of calls, all datatypes, numbers of elements and alignments", "why_tests_cant": "Fragmentation and leaks show only after particular histories of allocating and freeing.", "anchors": ["ma/ma.c:856-1010", "ma/ma.c:1949-2181"]}
{"id": "C76", "title": "The inquiries of the memory allocator tell what can be allocated", "statement": "If MA_inquire_avail, MA_inquire_heap, MA_inquire_stack or one of their variants returns n > 0, then n elements of that datatype can be allocated on the heap (on the stack) next; where the documentation says that n is the largest number, more cannot.", "quantifier": "all states of the allocator reached by calls, all datatypes", "why_tests_cant": "The answers depend on where heap and stack are relative to the partition, on fragments and on the alignment of their addresses.", "anchors": ["ma/ma.c:1472-1563", "ma/ma.c:2631-3094"]}
{"id": "C77", "title": "GA_Copy copies every element and nothing else", "statement": "If two arrays have the same dimensions and type, then after GA_Copy(A, B) each element of B equals the element of A with the same subscripts, whatever the distributions, groups and ghost widths of the two are; ghost cells and all other memory of B and all of A are unchanged; arrays with other dimensions or types are refused.", "quantifier": "all array shapes, distributions, process groups, ghost widths, contents; all orders in which the transfers of the processes happen", "why_tests_cant": "The pieces moved depend on both distributions at once; tests try few pairs of layouts and few group sizes.", "anchors": ["global/src/global.nalg.c:182-384"]}
{"id": "C78", "title": "GA_Transpose transposes every element and nothing else", "statement": "If A is m by n and B is n by m with the same type, then after GA_Transpose(A, B) element (j,i) of B equals element (i,j) of A, whatever the two distributions are; all other memory of B is unchanged; other shapes are refused.", "quantifier": "all matrix shapes, distributions, ghost widths, contents; all orders in which the transfers of the processes happen", "why_tests_cant": "The local transposition uses the leading dimension of the local memory, which differs from the extent only for some layouts and ghost widths.", "anchors": ["global/src/global.nalg.c:911-1030"]}
{"id": "C79", "title": "GA_Copy_patch copies corresponding elements and nothing else", "statement": "If a patch of A and a patch of B have the same number of elements and the types agree, then after GA_Copy_patch each element of the patch of B equals the element of A at the same position of its patch in column-major order (of the patch with reversed dimensions, if transposition is asked for); all other memory of B is unchanged. Patches outside the arrays, patches of different size and overlapping patches of one array are refused.", "quantifier": "all array shapes, distributions, groups, ghost widths, patches, contents, with and without transposition; all orders in which the transfers of the processes happen", "why_tests_cant": "Which of four algorithms runs depends on group sizes, distributions and shapes; each linearises subscripts and offsets in its own way.", "anchors": ["global/src/global.npatch.c:64-937"]}
{"id": "C80", "title": "GA_Fill_patch, GA_Zero_patch and GA_Scale_patch update the elements of the patch and nothing else", "statement": "After GA_Fill_patch (GA_Zero_patch, GA_Scale_patch) each element of the array inside the patch holds the value (zero, the value times the old element); all other elements, ghost cells and memory are unchanged. The members of the group of the array can call it among themselves.", "quantifier": "all array shapes, distributions, groups, ghost widths, contents, patches; all orders in which the processes update elements; all interleavings of the barriers", "why_tests_cant": "The offset loops walk a patch clipped to each block with leading dimensions of each distribution; tests look at a few shapes, and a barrier on the wrong group only hangs if a subgroup calls.", "anchors": ["global/src/global.npatch.c:1528-2340", "global/src/global.npatch.c:3126-3183"]}
{"id": "C81", "title": "GA_Zero, GA_Scale and GA_Fill update every element and nothing outside the array", "statement": "After GA_Zero (GA_Scale, GA_Fill) every element of the array holds zero (the value times the old element, the value); memory that does not belong to the array is unchanged; GA_Zero and GA_Scale leave ghost cells of map-distributed arrays unchanged. The call ends when all members of the group of the array call it, whether or not a process holds data.", "quantifier": "all array shapes, distributions, groups, ghost widths, contents and sizes; all orders of the updates; all interleavings of the barriers", "why_tests_cant": "Arrays beyond INT_MAX elements per process, processes without data and empty blocks of irregular maps are not tested; a wrong barrier shows only as a hang.", "anchors": ["global/src/global.nalg.c:39-174", "global/src/global.nalg.c:597-738", "global/src/base.c:4330-4425"]}
{"id": "C82", "title": "GA_Add and GA_Add_patch store alpha A + beta B in C", "statement": "After GA_Add_patch every element of the patch of C holds alpha times the corresponding element of the patch of A plus beta times the corresponding element of the patch of B, with the values A and B had before the call, also if C is A or B with the same patch; all other elements and ghost cells of C, and A and B if they are other arrays, are unchanged. GA_Add does the same for whole arrays and refuses arrays of different dimensions.", "quantifier": "all array shapes, numbers of dimensions, distributions, ghost widths, groups, patches with the same number of elements, contents; all orders of the element operations of different processes between synchronisations", "why_tests_cant": "There are six paths (no copy, copy of A, of B, of both, blocked arrays, identical distributions), each with its own temporaries and leading dimensions; tests use a few combinations, and reads outside a block often hit other allocated memory.", "anchors": ["global/src/global.nalg.c:744-909", "global/src/global.npatch.c:107-132", "global/src/global.npatch.c:2340-3125"]}
{"id": "C83", "title": "GA_Dot and GA_Dot_patch return the sum of the products of corresponding elements", "statement": "GA_Dot_patch returns, on every process, the sum over all elements of the patch of A of the product with the element of the patch of B that has the same position in column-major order (with the subscripts of B reversed if exactly one of the two is transposed); every element takes part exactly once, ghost cells do not, and A and B are unchanged. GA_Dot does the same for whole arrays.", "quantifier": "all array shapes, numbers of dimensions, distributions, ghost widths, groups, patches with the same number of elements, transposition flags, contents; all orders of the copies to the temporary array and of the contributions of the processes", "why_tests_cant": "Which pairs of cells are multiplied depends on whether the blocks of all processes agree, on ghost widths and on ranks; a test that fills the arrays with constants or compares sums cannot see that other cells or ghost cells take part.", "anchors": ["global/src/global.nalg.c:393-591", "global/src/global.npatch.c:938-1091", "global/src/global.npatch.c:1099-1517"]}
{"id": "C84", "title": "Operations on the diagonal of a matrix touch the diagonal and nothing else", "statement": "GA_Get_diag copies element (k,k) of A to element k of V for every k; GA_Set_diagonal and GA_Add_diagonal replace element (k,k) of A by element k of V, or by its sum with element k of V; GA_Shift_diagonal adds a constant to every (k,k); GA_Zero_diagonal sets every (k,k) to 0. No other element, and no ghost cell, changes. All element types are supported.", "quantifier": "all matrix shapes (not only square), distributions, ghost widths, groups, layouts of V, contents; all orders of the accesses of the processes", "why_tests_cant": "The start of the diagonal within a block and its stride depend on where the block lies and on the ghost widths; tests use square blocks on the diagonal and one or two data types.", "anchors": ["global/src/matrix.c:1358-1480", "global/src/matrix.c:1488-1585", "global/src/matrix.c:1595-1811", "global/src/matrix.c:1816-2043", "global/src/matrix.c:2045-2225", "global/src/matrix.c:2227-2427"]}
{"id": "C85", "title": "GA_Scale_rows and GA_Scale_cols multiply every row or column by its element of the vector", "statement": "After GA_Scale_rows every element (i,j) of A is its old value times element i of V; after GA_Scale_cols it is its old value times element j of V. Nothing else, and no ghost cell, changes. All element types are supported.", "quantifier": "all matrix shapes, distributions, ghost widths, groups, layouts of V, contents; all orders of the accesses of the processes", "why_tests_cant": "Which element of V belongs to which cell depends on the position of the block and its leading dimension; tests use real types and small regular layouts.", "anchors": ["global/src/matrix.c:2429-2633", "global/src/matrix.c:2635-2840"]}
{"id": "C86", "title": "GA_Norm1 and GA_Norm_infinity return the sum and the maximum of the absolute values", "statement": "For arrays of one or two dimensions GA_Norm1 returns, on every process, the sum of the absolute values of all elements, each counted once, and GA_Norm_infinity the greatest absolute value; ghost cells do not count. All element types and distributions are supported.", "quantifier": "all one- and two-dimensional array shapes, distributions (also block-cyclic), ghost widths, contents; all orders of the contributions of the processes", "why_tests_cant": "The result depends on how many blocks a process has and on where the greatest element lies; a test with one block per process, or with all elements equal, cannot see that blocks are forgotten.", "anchors": ["global/src/matrix.c:730-864", "global/src/matrix.c:871-1049", "global/src/matrix.c:1051-1176", "global/src/matrix.c:1183-1357"]}
{"id": "C87", "title": "GA_Elem_multiply, _divide, _maximum, _minimum and their patch versions combine corresponding elements", "statement": "After GA_Elem_{multiply,divide,maximum,minimum}(_patch)(A,B,C) every element of the patch of C is the product, quotient, larger or smaller (by absolute value for complex types) of the corresponding elements of A and B as they were before the call; nothing else changes; division by zero is an error. The patches may have different distributions and C may be A or B. All numeric element types are supported.", "quantifier": "all shapes, distributions (map-distributed and block-cyclic), ghost widths, patches of equal size, contents, element types, aliasing of C with A or B; all interleavings of the processes within a phase", "why_tests_cant": "Whether operands are copied, and where, depends on the distributions of all three arrays on all processes; a test on one distribution takes one path. In particular the operand A is copied into C itself only if its distribution differs.", "anchors": ["global/src/elem_alg.c:1068-1265", "global/src/elem_alg.c:1533-1720", "global/src/elem_alg.c:1722-1819", "global/src/elem_alg.c:1823-2233", "global/src/elem_alg.c:2238-2430", "global/src/abstract_ops.h:40-42"]}
{"id": "C88", "title": "GA_Median and GA_Median_patch store the elementwise median of three arrays", "statement": "After GA_Median(_patch)(A,B,C,M) every element of the patch of M is the median of the corresponding elements of A, B and C as they were before the call (by absolute value for complex types), whatever the distributions are; nothing outside the patch of M changes. M may be A, B or C. All numeric types are supported.", "quantifier": "all shapes, distributions (also block-cyclic), ghost widths, patches of equal size, contents, aliasing of M; all interleavings of the processes within a phase", "why_tests_cant": "The path depends on a reduction over all processes of a comparison of distributions (which is negated in the code); tests with arrays of one distribution never use arrays whose blocks differ on every process, and whole-array tests do not see writes outside the patch.", "anchors": ["global/src/matrix.c:40-80", "global/src/matrix.c:84-286", "global/src/matrix.c:288-665", "global/src/matrix.c:670-728"]}
{"id": "C89", "title": "GA_Abs_value, GA_Add_constant and GA_Recip apply the function to every element of the patch", "statement": "GA_Abs_value(_patch), GA_Add_constant(_patch) and GA_Recip(_patch) replace every element of the patch by its absolute value (for complex types the modulus with imaginary part 0), its sum with the constant, or its reciprocal; nothing outside the patch and no ghost cell changes. The reciprocal of zero is an error. All numeric types and every element value with a representable result are supported; the members of the array's group suffice as callers.", "quantifier": "all shapes, distributions (also block-cyclic), ghost widths, groups, patches, contents, element types; all interleavings of the processes", "why_tests_cant": "The result depends on the offset arithmetic of every local block, on the boundary values of the integer types, and for complex types on which part is larger; tests take a few shapes, double arrays, and the world group.", "anchors": ["global/src/elem_alg.c:246-336", "global/src/elem_alg.c:338-522", "global/src/elem_alg.c:524-574", "global/src/elem_alg.c:650-988", "global/src/elem_alg.c:989-1064"]}
{"id": "C90", "title": "GA_Step_max returns the largest multiple of B that can be added to A", "statement": "For A without negative elements, GA_Step_max(A,B) and GA_Step_max_patch return r >= 0 such that no element of A + r*B (in the patch) is negative and every larger multiple makes one negative, or the type's GA_INFINITY if there is no bound; a negative element of A in the patch is an error.", "quantifier": "all shapes, distributions, patches, contents, element types; all interleavings of the processes within a phase", "why_tests_cant": "The answer combines an elementwise operation, an update, a reduction over a temporary and a check on every process; errors show only with patches smaller than the array, with integer quotients that round to zero, or with several blocks per process.", "anchors": ["global/src/elem_alg.c:189-241", "global/src/elem_alg.c:1269-1371", "global/src/elem_alg.c:2432-2590", "global/src/elem_alg.c:2761-3095", "global/src/elem_alg.c:3487-3683"]}
{"id": "C91", "title": "GA_Symmetrize replaces every element by the mean of itself and its mirror image", "statement": "GA_Symmetrize(A), for an array whose last two extents are equal, replaces every element by half the sum of itself and the element with the last two subscripts exchanged, both as before the call. The result is symmetric, the diagonal is unchanged, and no ghost cell nor other array changes. It works for every distribution, group, element type and number of dimensions.", "quantifier": "all shapes with equal last extents, distributions (also block-cyclic, ScaLAPACK, tiled), ghost widths, groups, contents; all interleavings of the processes within a phase", "why_tests_cant": "The in-place loop walks the local block with two counters that wrap at different places; blocks are not square, the mirrored elements are on other processes, and rounding at the ends of the exponent range needs particular values. Tests use one square double matrix on the world group.", "anchors": ["global/src/ga_symmetr.c:20-44", "global/src/ga_symmetr.c:49-123"]}
{"id": "C92", "title": "GA_Matmul_patch computes alpha op(A) op(B) + beta C on the patches and changes nothing else", "statement": "GA_Matmul_patch(transa, transb, alpha, beta, A, patch, B, patch, C, patch), for patches whose shapes fit, makes every element of the patch of C equal to alpha times the element of the product of the patches of op(A) and op(B) plus beta times its old value, where op is the identity, the transposition or the conjugate transposition. No other element or ghost cell of C changes. This holds for every distribution of the three arrays, every element type, every amount of free memory and every order in which the processes' updates arrive.", "quantifier": "all extents, patches, operations, factors, distributions, ghost widths, numbers of processes, chunk sizes and free memory; all interleavings of the element updates of all processes", "why_tests_cant": "The product is split into chunks in three directions that are dealt to the processes round-robin, and the parts arrive as concurrent accumulates; chunk sizes depend on free memory and on floating-point roots. Tests use one size per run, with C much smaller than a chunk, and check the whole of a map-distributed C.", "anchors": ["global/src/matmul.c:1920-2013", "global/src/matmul.c:2024-2397", "global/src/matmul.c:2572-2794", "global/src/matmul.h"]}
{"id": "C93", "title": "GA_Dgemm computes alpha op(A) op(B) + beta C and stays inside its buffers", "statement": "GA_Dgemm and its variants for the other types (and the patch version ngai_matmul), for two-dimensional arrays on one group and patches whose shapes fit, make every element of the patch of C equal to alpha times the element of the product of the patches of op(A) and op(B) plus beta times its old value, and change nothing else of C, for every distribution and every order in which the updates of the processes arrive. All three algorithms do: the pipelined ones for irregular patches and for regular distributions, which fetch the operands of the next task while they compute the present one, and the one for one shared-memory node. The parts of the one buffer they allocate do not overlap and lie inside it.", "quantifier": "all extents, patches, operations, factors, distributions, ghost widths, chunk sizes, groups and numbers of processes; all interleavings of the element updates of all processes; all sizes of the buffer", "why_tests_cant": "Whether a fetch lands in the buffer part the computation reads depends on the parity of the tasks that precede it on the process, on skipped fetches of B and on empty tasks. Arrays on a proper process group and the one buffer size at which padding matters are not exercised by the test programs.", "anchors": ["global/src/matmul.c:30-292", "global/src/matmul.c:345-485", "global/src/matmul.c:569-817", "global/src/matmul.c:821-1057", "global/src/matmul.c:1290-1596", "global/src/matmul.h"]}
{"id": "C94", "title": "Rows and columns of a sparse matrix are cut into equal consecutive parts, known alike everywhere", "statement": "NGA_Sprs_array_row_distribution(p) and NGA_Sprs_array_column_distribution(p) return, on whichever process they are called, the indices x with p*d <= x*n < (p+1)*d, where d is the number of rows (columns) and n the number of processes. So each index belongs to exactly one part.", "quantifier": "all numbers of processes, extents, parts and calling processes", "why_tests_cant": "The limits are found by an estimate in integers that is then moved up and down, and a process's own rows come from stored values computed by another loop; tests use square matrices with extents that are multiples of the process grid.", "anchors": ["global/src/sparse.array.c:604-637", "global/src/sparse.array.c:889-955"]}
{"id": "C95", "title": "NGA_Sprs_array_assemble keeps every element that any process has added", "statement": "After NGA_Sprs_array_assemble, the blocks that NGA_Sprs_array_access_col_block gives for the column blocks in NGA_Sprs_array_col_block_list hold, row by row, exactly the elements (row, column, value) that all the processes have added with NGA_Sprs_array_add_element, repeated ones as often as they were added. Process p holds the rows of part p. This holds for every order in which the processes reserve space and send their elements.", "quantifier": "all numbers of processes, extents, lists of added elements and orders of the read-increments and puts of the processes", "why_tests_cant": "Elements are binned by owner in linked lists, space on the owner is reserved by remote read-increments in any order, and the received elements are sorted into column blocks and rows again by linked lists; tests use one stencil matrix in which every process has many elements of its own rows.", "anchors": ["global/src/sparse.array.c:178-258", "global/src/sparse.array.c:267-875", "global/src/sparse.array.c:967-1067"]}
{"id": "C96", "title": "NGA_Sprs_array_matvec_multiply computes the product of the sparse matrix with a vector", "statement": "For a sparse matrix with I rows and J columns, NGA_Sprs_array_matvec_multiply(A, a, v) makes v[i] the sum over all elements (i, j, x) of A of x times a[j], for every row i. This holds for all element types and whichever order the processes' accumulates arrive in.", "quantifier": "all numbers of processes, matrices, vectors, element types and orders of the processes", "why_tests_cant": "Each process multiplies the column blocks it has one after another and accumulates into the distributed result; tests use a square real matrix with elements in all rows.", "anchors": ["global/src/sparse.array.c:1143-1305"]}
{"id": "C97", "title": "NGA_Sprs_array_get_diag and get_column return the diagonal and a column of a sparse matrix", "statement": "For a sparse matrix with at most one element per place, NGA_Sprs_array_get_diag makes a vector whose element i is the value at row i and column i, and NGA_Sprs_array_get_column(j) one whose element i is the value at row i and column j; where the matrix has no element it is zero. No memory but the matrix is read.", "quantifier": "all numbers of processes, matrices, columns and orders of the processes", "why_tests_cant": "Each process looks for the elements in one of its column blocks, chosen by arithmetic that only fits square matrices for the diagonal, and blocks without elements are not stored; tests use a square matrix with a full diagonal.", "anchors": ["global/src/sparse.array.c:1598-1700", "global/src/sparse.array.c:3113-3221"]}
{"id": "C98", "title": "Scaling, shifting and multiplying a sparse matrix by a diagonal change every value once and as they should", "statement": "NGA_Sprs_array_scale(s) multiplies every value by s; diag_left_multiply(d) multiplies every value in row i by d[i], and diag_right_multiply(d) every value in column j by d[j], where d has as many elements as the matrix has rows or columns; shift_diag(s) adds s to every element of the diagonal, so that the result is A + s I. Rows and columns of the elements stay as they are.", "quantifier": "all numbers of processes, matrices, diagonals, factors and shifts", "why_tests_cant": "The values are changed in place through pointers into the blocks, found from two tables of offsets; a wrong offset changes values of other rows or the same value twice. Tests use one square matrix.", "anchors": ["global/src/sparse.array.c:1709-1830", "global/src/sparse.array.c:1838-1960", "global/src/sparse.array.c:1972-2075", "global/src/sparse.array.c:4212-4288"]}
{"id": "C99", "title": "NGA_Sprs_array_matmat_multiply makes the product of two sparse matrices", "statement": "For a sparse matrix A with as many columns as B has rows, NGA_Sprs_array_matmat_multiply(A,B) makes a sparse matrix that has exactly one element at each place (i,j) for which A has an element (i,k) and B an element (k,j), and its value is the sum of all products of such elements. No memory outside of the arrays and buffers is used.", "quantifier": "all numbers of processes, matrices, elements and sizes of indices", "why_tests_cant": "The products are collected in a hash table whose size is computed from the largest numbers of elements in a row; collisions, full tables and processes without any product depend on the pattern of both matrices.", "anchors": ["global/src/sparse.array.c:2186-2265", "global/src/sparse.array.c:2522-3103"]}

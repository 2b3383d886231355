{
 "claims": [
  {
   "property": "C01",
   "status": "proved",
   "theorems": [
    "C01_unique_owner",
    "C01_blocks_inside",
    "C01_duplicate_restricted_refuted"
   ],
   "note": "For valid block maps, optionally restricted to distinct processes. Finding: the restriction call accepts repeated processes and then an element has no owner."
  },
  {
   "property": "C02",
   "status": "proved",
   "theorems": [
    "C02_locate_in",
    "C02_locate_out",
    "C02_locate_float",
    "C02_locate_blocked_refuted"
   ],
   "note": "Map-distributed arrays, any admissible guess and any IEEE-style rounding. Finding: on block-size arrays subscripts outside the array are accepted."
  },
  {
   "property": "C03",
   "status": "proved",
   "theorems": [
    "C03_default_distribution_valid",
    "C03_default_array_wf",
    "C03_default_shape"
   ],
   "note": "ddb_ex (exhaustive search) is not reachable with threshold 0 and not modelled; floating point comparison is an arbitrary oracle."
  },
  {
   "property": "C04",
   "status": "proved",
   "theorems": [
    "C04_grid_uses_every_process"
   ],
   "note": "For every outcome of the floating point comparisons."
  },
  {
   "property": "C05",
   "status": "proved",
   "theorems": [
    "C05_region_tiles",
    "C05_region_reject"
   ],
   "note": ""
  },
  {
   "property": "C06",
   "status": "proved",
   "theorems": [
    "C06_unique_block",
    "C06_blocks_inside",
    "C06_home",
    "C06_block_counts"
   ],
   "note": ""
  },
  {
   "property": "C07",
   "status": "proved",
   "theorems": [
    "C06_unique_block",
    "C06_blocks_inside",
    "C07_grid_home"
   ],
   "note": ""
  },
  {
   "property": "C08",
   "status": "partial",
   "theorems": [
    "C08_bc_region_partial",
    "C08_bc_region_refuted"
   ],
   "note": "False of the code for regions strictly inside a block (refuted); proved for regions at least a block wide, and that every returned piece is right."
  },
  {
   "property": "C09",
   "status": "partial",
   "theorems": [
    "C09_sl_region_partial",
    "C09_sl_region_refuted"
   ],
   "note": "False of the code for unequal block counts (refuted)."
  },
  {
   "property": "C10",
   "status": "partial",
   "theorems": [
    "C10_compare_regular",
    "C10_compare_blocked",
    "C10_compare_refuted"
   ],
   "note": "Proved for maps without empty blocks; false with empty blocks (refuted)."
  },
  {
   "property": "C100",
   "status": "partial",
   "theorems": [
    "C100_partial",
    "C100_ghost_refuted",
    "C100_empty_refuted"
   ],
   "note": "Proved for both interfaces when every process has a part of the array, without ghost cells, and every process gets an element. Refuted: with ghost cells wrong memory is read, and a process without a part ends the program."
  },
  {
   "property": "C101",
   "status": "partial",
   "theorems": [
    "C101_partial",
    "C101_fortran",
    "C101_fortran_refuted",
    "C101_shape_refuted"
   ],
   "note": "Proved for square matrices in the C interface, for at most as many processes as rows. Refuted: the Fortran interface always ends with an error, since entry 0 of the map stays 0; matrices that are not square get an array of the wrong shape or end the program."
  },
  {
   "property": "C102",
   "status": "partial",
   "theorems": [
    "C102_partial",
    "C102_assembled",
    "C102_shape_refuted",
    "C102_fortran_refuted"
   ],
   "note": "Proved for the C interface when the array is square, for at most as many processes as rows and columns, for every matrix that is assembled (each process gets an element). Refuted: with more columns than rows in the array the other columns of the product stay zero, with fewer the program ends; the Fortran interface reads outside of the buffer."
  },
  {
   "property": "C103",
   "status": "partial",
   "theorems": [
    "C103_partial",
    "C103_shape",
    "C103_shape_refuted",
    "C103_complex_refuted"
   ],
   "note": "Proved for square sparse matrices and at most as many processes as rows and columns, in the C interface for all types and in the Fortran interface for all types that are not complex. Refuted: the columns of A are compared with the columns of B instead of its rows, so that a product with a matrix that is not square always ends the program; in the Fortran interface the imaginary parts of A are read from wrong places."
  },
  {
   "property": "C104",
   "status": "partial",
   "theorems": [
    "C104_partial",
    "C104_assembled",
    "C104_types_refuted",
    "C104_empty_refuted"
   ],
   "note": "Proved for matrices of type C_INT, C_LONG, C_FLOAT and C_DBL with an element in the rows of every process, and for complex matrices whose processes have at most one block each. The header of the file and the text of the numbers are not modelled. Refuted: the numbers of a complex matrix are read from wrong places in every block but the first; no line is written for a C_LONGLONG matrix; a process without elements ends the program."
  },
  {
   "property": "C105",
   "status": "partial",
   "theorems": [
    "C105_safe_partial",
    "C105_terminate_partial",
    "C105_destroyed_partial",
    "C105_full",
    "C105_refused",
    "C105_copy_refuted",
    "C105_full_refuted"
   ],
   "note": "Proved for all sequences of allowed calls: while the table has a free entry every call only uses memory that it has and new handles are not in use; GA_Terminate frees nothing twice; without copies everything is freed. The memory is that of one process, without the global arrays and the buffers that a function frees itself; products with at least one block. Refuted: NGA_Sprs_array_duplicate loses the three buffers of the new array; without a free entry a handle that was never set is returned."
  },
  {
   "property": "C106",
   "status": "partial",
   "theorems": [
    "C106_malloc_partial",
    "C106_buffers_partial",
    "C106_free_partial",
    "C106_order",
    "C106_types_refuted",
    "C106_register_refuted"
   ],
   "note": "Proved for all sequences of ga_malloc, ga_free and writes inside buffers, any placement by the allocator, with one allocator used throughout and element sizes that divide 16; with MA the newest buffer is freed first, as MA_pop_stack requires. Refuted: a size such as 24 of a registered type ends with an error; after GA_Register_stack_memory a buffer from MA is freed at an address that was never given out. The allocators are assumed to give out unused memory at positive addresses; sizes do not overflow."
  },
  {
   "property": "C107",
   "status": "partial",
   "theorems": [
    "C107_partial",
    "C107_represents",
    "C107_group_refuted"
   ],
   "note": "Proved for all assembled matrices: the copy has the same elements in the same blocks on the same processes and represents the same matrix; if the default group at the call has as many processes as the group of the matrix, all distribution queries agree. Missing and refuted: with another default group nprocs of the copy is that of the default group, and the copy tells a distribution in which its own elements do not lie. pnga_duplicate and pnga_copy_patch are taken as exact; memory of copies is in C105."
  },
  {
   "property": "C11",
   "status": "proved",
   "theorems": [
    "C11_regular_iterator",
    "C11_rejects"
   ],
   "note": "REGULAR arrays with ghost cells, restricted lists and groups; requests with a one-element-thick slab above 2 GiB in some dimension are excluded, see C46."
  },
  {
   "property": "C12",
   "status": "proved",
   "theorems": [
    "C12_permutation"
   ],
   "note": "For every sequence of non-negative values of rand()."
  },
  {
   "property": "C13",
   "status": "partial",
   "theorems": [
    "C13_block_cyclic_iterator_partial",
    "C13_fewer_blocks_refuted",
    "C13_group_blocks_missed_refuted",
    "C13_group_address_refuted"
   ],
   "note": "Proved for arrays on the world group with at least one block per process. With fewer blocks than processes the code visits elements twice; on process groups it skips blocks and pairs a rank with another rank's base pointer. These are proved as refutations."
  },
  {
   "property": "C14",
   "status": "partial",
   "theorems": [
    "C14_tiled_iterator_partial",
    "C14_scalapack_iterator_partial",
    "C14_inverted_range_refuted",
    "C14_group_address_refuted"
   ],
   "note": "Proved for arrays on the world group whose process grid does not exceed the block grid in any dimension (block maps without empty blocks). With larger grids inverted ranges are produced; on process groups rank and base pointer disagree. Both are proved as refutations."
  },
  {
   "property": "C15",
   "status": "proved",
   "theorems": [
    "C15_regular_storage"
   ],
   "note": "Place and allocated size modelled from gam_Location and pnga_allocate; all ghost widths and groups."
  },
  {
   "property": "C16",
   "status": "partial",
   "theorems": [
    "C16_block_cyclic_storage_partial",
    "C16_tiled_storage_partial",
    "C16_scalapack_storage_partial",
    "C16_group_memory_refuted"
   ],
   "note": "Proved for arrays on the world group (block maps without empty blocks). Refuted on proper groups: pnga_allocate sizes block-cyclic memory with GAme/GAnproc instead of the group rank and size."
  },
  {
   "property": "C17",
   "status": "partial",
   "theorems": [
    "C17_block_cyclic_access_partial",
    "C17_tiled_irreg_access_partial",
    "C17_scalapack_access_partial",
    "C17_tiled_access_partial",
    "C17_tiled_one_process_refuted",
    "C17_tiled_grid_refuted",
    "C17_group_access_refuted"
   ],
   "note": "Proved on the world group for BLOCK_CYCLIC, SCALAPACK, TILED_IRREG (no empty blocks) and for TILED when every grid extent is 2. Refuted for TILED arrays with a grid extent of 1 or 3 (the pointer is past the end of the allocated memory) and for block-cyclic arrays on a group."
  },
  {
   "property": "C18",
   "status": "proved",
   "theorems": [
    "C18_put"
   ],
   "note": "Counts and strides have to fit a C int (good_request) and the region has to be splittable; see C51 and C46 for what happens otherwise. Element transfers are the contract of the strided ARMCI calls, in any completion order."
  },
  {
   "property": "C19",
   "status": "proved",
   "theorems": [
    "C19_get"
   ],
   "note": "Element transfers are the contract of the strided ARMCI calls, in any completion order."
  },
  {
   "property": "C20",
   "status": "proved",
   "theorems": [
    "C20_get_after_put"
   ],
   "note": "Element transfers are the contract of the strided ARMCI calls, in any completion order."
  },
  {
   "property": "C21",
   "status": "proved",
   "theorems": [
    "C21_accumulate"
   ],
   "note": "Alpha and the arithmetic are an arbitrary function of old value and buffer value. Element transfers are the contract of the strided ARMCI calls, in any completion order."
  },
  {
   "property": "C22",
   "status": "proved",
   "theorems": [
    "C22_concurrent_accumulate"
   ],
   "note": "Element updates are atomic (ARMCI accumulate); the law (a+b)+c=(a+c)+b is a hypothesis, so floating point is covered only up to reassociation."
  },
  {
   "property": "C23",
   "status": "proved",
   "theorems": [
    "C23_concurrent_put"
   ],
   "note": "Element transfers are the contract of the strided ARMCI calls, in any completion order."
  },
  {
   "property": "C24",
   "status": "proved",
   "theorems": [
    "C24_read_inc_history",
    "C24_tickets"
   ],
   "note": "Map-distributed arrays (ghost cells, groups, restricted lists), block-cyclic, ScaLAPACK, tiled-irregular arrays and tiled arrays on grids of extent 2; the transport's fetch-and-add is one atomic step; increments are C ints."
  },
  {
   "property": "C25",
   "status": "partial",
   "theorems": [
    "C25_increment_partial",
    "C25_truncated_refuted"
   ],
   "note": "Proved for increments in the range of a C int; refuted for larger increments on 64-bit arrays, which are truncated."
  },
  {
   "property": "C26",
   "status": "partial",
   "theorems": [
    "C26_gather_partial",
    "C26_scatter_partial",
    "C26_scatter_repeated_partial",
    "C26_scatter_acc_partial",
    "C26_oversized",
    "C26_group_caller_refuted",
    "C26_restricted_caller_refuted",
    "C26_restricted_group_refuted"
   ],
   "note": "Proved for the compiled variant gai_gatscat_new when the caller's rank is within the arrays the call allocates and the array is not both restricted and on a group; outside of this the call reads out of bounds or addresses the wrong process (refutations). Tiled process grids only with extent two (see C17). The two-dimensional entry points scatter2d/gather2d are not modelled."
  },
  {
   "property": "C27",
   "status": "partial",
   "theorems": [
    "C27_strided_put_partial",
    "C27_strided_get_partial",
    "C27_strided_acc_partial",
    "C27_strided_put_blocked_partial",
    "C27_strided_get_blocked_partial",
    "C27_strided_acc_blocked_partial",
    "C27_three_dimensions_refuted",
    "C27_leading_dimension_refuted"
   ],
   "note": "Proved for one- and two-dimensional arrays on the world group (all distributions; rank 0 on BLOCK_CYCLIC) when the caller passes ndim leading dimensions. False from three dimensions on (buffer index of a piece), and with ndim-1 leading dimensions entry ndim-1 is read."
  },
  {
   "property": "C28",
   "status": "partial",
   "theorems": [
    "C28_group_refuted",
    "C28_group_process_refuted",
    "C28_calling_rank_refuted",
    "C27_strided_put_partial",
    "C27_strided_put_blocked_partial"
   ],
   "note": "False: ranks are translated twice on groups, and block-cyclic arrays start at the caller's rank. What holds (world group, rank 0 on block-cyclic arrays) is C27."
  },
  {
   "property": "C29",
   "status": "partial",
   "theorems": [
    "C29_periodic_get_partial",
    "C29_periodic_put_partial",
    "C29_periodic_acc_partial",
    "C29_periodic_get_blocked_partial",
    "C29_periodic_put_blocked_partial",
    "C29_periodic_acc_blocked_partial",
    "C29_far_below_refuted",
    "C29_two_periods_refuted",
    "C29_rejected"
   ],
   "note": "Proved per dimension for requests that overlap the array and reach at most one period beyond either end, or that are at most one element longer than the array and end less than one period before it (any distance above); put and accumulate additionally when no element is met twice. Every completion order. Refuted for requests a full period or more below the array and for two-period requests that end beyond twice the extent: accepted, but patches outside the array are passed on."
  },
  {
   "property": "C30",
   "status": "proved",
   "theorems": [
    "C30_histories_run",
    "C30_wait_completes",
    "C30_stays_complete"
   ],
   "note": ""
  },
  {
   "property": "C31",
   "status": "proved",
   "theorems": [
    "C31_test_true",
    "C31_test_returns",
    "C31_test_false"
   ],
   "note": "The converse direction (a denied completion is right) is for the first 2^24 operations, after which handles repeat."
  },
  {
   "property": "C32",
   "status": "proved",
   "theorems": [
    "C32_recorded",
    "C32_bound",
    "C32_distinct",
    "C32_forced_transfer",
    "C32_forced_operation"
   ],
   "note": ""
  },
  {
   "property": "C33",
   "status": "partial",
   "theorems": [
    "C33_fence_partial",
    "C33_scatter_refuted",
    "C33_scatter_acc_group_refuted",
    "C33_group_sync_refuted"
   ],
   "note": "Proved for puts and accumulates with no sync between init_fence and fence. Scatter and strided stores do not mark their target, scatter_acc2d on a group array marks the wrong process, and a group sync drops the open fence (refutations)."
  },
  {
   "property": "C34",
   "status": "partial",
   "theorems": [
    "C34_get_partial",
    "C34_block_get_partial",
    "C34_padded_get_refuted"
   ],
   "note": "Proved for every history of gets whose sizes fit into an int, when the leading dimensions of the caller's buffer are the extents of the region or the region was not part of an earlier one. A get served from the cache ignores the leading dimensions (refutation). The read from the array is the model of C19/C49."
  },
  {
   "property": "C35",
   "status": "proved",
   "theorems": [
    "C35_no_use_after_free",
    "C35_block_no_use_after_free"
   ],
   "note": "For requests within the int range of the code. The list never has more than one entry after a get, because the trimming loop does not advance."
  },
  {
   "property": "C36",
   "status": "partial",
   "theorems": [
    "C36_same_array_partial",
    "C36_other_array_partial",
    "C36_inside_partial",
    "C36_source_changed_refuted",
    "C36_three_dimensions_refuted",
    "C36_wrong_element_refuted"
   ],
   "note": "Proved in full when the notify element is not in the region. When it is, the target is right in up to two dimensions, but the user's buffer is changed (refutation); in three dimensions a correct call ends in an error and a wrong one corrupts the target (refutations). Requests within the int limits of the transport, as C18/C48."
  },
  {
   "property": "C37",
   "status": "partial",
   "theorems": [
    "C37_calls_do_as_specified_partial",
    "C37_descriptors_partial",
    "C37_capacity_partial",
    "C37_unallocated_destroy_refuted",
    "C37_deallocated_destroy_refuted",
    "C37_live_handle_given_again_refuted",
    "C37_copy_shares_cache_refuted",
    "C37_failed_copy_frees_cache_refuted",
    "C37_destroy_read_only_refuted",
    "C37_bad_handle_refuted"
   ],
   "note": "Proved for all histories of calls that [allowed] admits (create, set_data, set_pgroup, allocate, duplicate, destroy, deallocate, limits, GA_Getmem/Freemem, READ_CACHE and READ_ONLY set and unset). Left out because the code goes wrong there (refutations): destroying an unallocated handle, allocating a destroyed one, duplicating an array with cached reads, destroying a read-only array, handles outside the table."
  },
  {
   "property": "C38",
   "status": "partial",
   "theorems": [
    "C38_memory_accounting_partial",
    "C38_failed_allocation_charges_nothing_partial",
    "C38_allocate_twice_refuted",
    "C38_copy_of_overlay_refuted",
    "C38_failed_overlay_refuted",
    "C38_getmem_refuted",
    "C38_statistics_refuted"
   ],
   "note": "Proved for the same histories as C37; blocks from GA_Getmem count as memory in use. Refuted for double allocation, overlays, GA_Getmem beyond the limit and the curmem statistics."
  },
  {
   "property": "C39",
   "status": "partial",
   "theorems": [
    "C39_limit_change_partial",
    "C39_third_limit_refuted",
    "C39_same_limit_refuted",
    "C39_limit_while_in_use_refuted"
   ],
   "note": "Proved for a change of the limit that was first put in force and for a first limit with no memory in use; every further change is computed from the first limit, and a limit imposed later ignores the memory in use (refutations)."
  },
  {
   "property": "C40",
   "status": "proved",
   "theorems": [
    "C40_mutual_exclusion",
    "C40_not_twice",
    "C40_no_failure",
    "C40_no_lost_request"
   ],
   "note": "For every schedule of lock and unlock calls by properly used mutexes (unlock only what one holds), of message handling by the lock servers and of returning calls. Also: no assertion or out-of-range access, and no request is forgotten."
  },
  {
   "property": "C41",
   "status": "partial",
   "theorems": [
    "C41_other_mutex_partial",
    "C41_other_mutex_refuted"
   ],
   "note": "The code maps every mutex number to the same ComEx mutex, so C41 holds only with one process; for every number of processes above one and every two mutexes the second lock never returns."
  },
  {
   "property": "C42",
   "status": "partial",
   "theorems": [
    "C42_groups_partial",
    "C42_create_members",
    "C42_outside_refuted",
    "C42_duplicate_refuted",
    "C42_duplicate_world_refuted",
    "C42_mirror_refuted",
    "C42_mirror_default_refuted",
    "C42_destroy_twice_refuted"
   ],
   "note": "Holds after every history of creating, destroying, duplicating groups and changing the default group with lists inside the default group, without group 0, and with duplicates only of groups that are the first part of the default group or whose parent is the default. Refuted: lists naming ranks outside the default group are read out of range; a duplicate has other members for translation than for ranks; duplicating the world, translating ranks of the group of the own node (0) and creating groups in it go wrong; destroying a group twice is fatal."
  },
  {
   "property": "C43",
   "status": "partial",
   "theorems": [
    "C43_split_partial",
    "C43_count_partial",
    "C43_colours",
    "C43_count_refuted",
    "C43_outsider_refuted"
   ],
   "note": "Every member of the group that is split is in exactly one new group, the answer is its own, everything else is unchanged. The number of groups is the one asked for exactly if (num - 1) * ceil(np / num) < np, else smaller (5 processes into 4 groups give 3). A process outside the group gets a group it is not in."
  },
  {
   "property": "C44",
   "status": "partial",
   "theorems": [
    "C44_irregular_partial",
    "C44_tiled_partial",
    "C44_first_needed",
    "C44_tiled_first_needed",
    "C44_blocks_needed",
    "C44_first_refuted",
    "C44_tiled_first_refuted",
    "C44_blocks_refuted",
    "C44_no_blocks_refuted"
   ],
   "note": "The check does not ask that the maps begin at 1, that there is at least one block in every dimension, nor (without tiles) that there are enough processes. With these three every accepted request gives every element exactly one owner; each of them is needed. Restricted arrays are in C01."
  },
  {
   "property": "C45",
   "status": "partial",
   "theorems": [
    "C45_types_partial",
    "C45_not_builtin",
    "C45_deregister_refuted",
    "C45_buffer_size_refuted"
   ],
   "note": "All histories; left out are deregistering an id beyond the table (accessed out of range, refuted) and the size used for temporary buffers, which is 0 for every registered type (refuted)."
  },
  {
   "property": "C46",
   "status": "partial",
   "theorems": [
    "C46_split_partial",
    "C46_exact_limit_refuted",
    "C46_slab_refuted"
   ],
   "note": "Splitting tiles the request with at most 2^31 bytes per piece when every slab fits; false in general: a piece of exactly 2^31 bytes is not split and a request whose slabs exceed 2 GiB ends in a division by zero."
  },
  {
   "property": "C47",
   "status": "partial",
   "theorems": [
    "C47_mem_copy_partial",
    "C47_mem_copy_refuted",
    "C54_put_partial",
    "C54_seven_levels_refuted"
   ],
   "note": "gai_mem_copy: proved for patches of up to 7 dimensions (the maximum) whose buffers hold less than 2^31 bytes; with larger buffers the int strides overflow (refuted). The ComEx copies are part of C54."
  },
  {
   "property": "C48",
   "status": "partial",
   "theorems": [
    "C48_block_put_partial",
    "C13_fewer_blocks_refuted",
    "C13_group_address_refuted",
    "C14_group_address_refuted"
   ],
   "note": "Within block_layout: world group and at least as many blocks as processes (per dimension for grids). Missing: process groups and small arrays, where the iterator is wrong (C13/C14 refutations)."
  },
  {
   "property": "C49",
   "status": "partial",
   "theorems": [
    "C49_block_get_partial",
    "C13_fewer_blocks_refuted",
    "C13_group_address_refuted",
    "C14_group_address_refuted"
   ],
   "note": "Within block_layout: world group and at least as many blocks as processes (per dimension for grids). Missing: process groups and small arrays, where the iterator is wrong (C13/C14 refutations)."
  },
  {
   "property": "C50",
   "status": "partial",
   "theorems": [
    "C50_block_concurrent_accumulate_partial",
    "C13_fewer_blocks_refuted"
   ],
   "note": "Within block_layout: world group and at least as many blocks as processes (per dimension for grids). Missing: process groups and small arrays, where the iterator is wrong (C13/C14 refutations). With fewer blocks than processes an accumulate would also be sent twice."
  },
  {
   "property": "C51",
   "status": "partial",
   "theorems": [
    "C51_large_stride_refuted"
   ],
   "note": "False: byte strides are C ints; with three dimensions and planes above 2 GiB they overflow. C18-C21 give the positive part."
  },
  {
   "property": "C52",
   "status": "proved",
   "theorems": [
    "C52_access_patch",
    "C52_access_only_local"
   ],
   "note": "Any map-distributed array, with ghost cells, groups and restricted process lists."
  },
  {
   "property": "C53",
   "status": "partial",
   "theorems": [
    "C53_access_index_partial",
    "C53_restricted_refuted"
   ],
   "note": "Holds for unrestricted arrays; refuted for arrays restricted to a subset of processes, where access_idx omits the rank translation."
  },
  {
   "property": "C54",
   "status": "partial",
   "theorems": [
    "C54_put_partial",
    "C54_get_partial",
    "C54_acc_partial",
    "C54_datatype_refuted",
    "C54_seven_levels_refuted"
   ],
   "note": "Proved for up to 6 stride levels, counts whose product fits an int, positive message size, and, where the MPI data type algorithm is chosen, nested strides. Refuted: with strides that are not multiples of each other the data type algorithm writes to wrong addresses; with 7 levels (accepted by the assertions) the odometer arrays overflow."
  },
  {
   "property": "C55",
   "status": "partial",
   "theorems": [
    "C55_first_get_after_unset_partial",
    "C55_unset_property_refuted"
   ],
   "note": "Proved for the first get after unset_property. The property itself stays set, so later gets are cached again and miss modifications (refutation)."
  },
  {
   "property": "C56",
   "status": "proved",
   "theorems": [
    "C56_sync",
    "C56_group_sync"
   ],
   "note": "From the view of one caller; messages to a server are handled in order, one process serves each process."
  },
  {
   "property": "C57",
   "status": "proved",
   "theorems": [
    "C57_order",
    "C57_read_own_writes"
   ],
   "note": "As C56."
  },
  {
   "property": "C58",
   "status": "proved",
   "theorems": [
    "C58_notify_handles"
   ],
   "note": "Handles are the addresses of the caller's handle variables (not NULL)."
  },
  {
   "property": "C59",
   "status": "partial",
   "theorems": [
    "C59_progress_partial",
    "C59_sizes",
    "C59_round_robin_refuted",
    "C59_number_refuted"
   ],
   "note": "Proved for every placement whose nodes are consecutive ranks, any number of progress ranks and both arrangements; wrong node sizes abort for every placement. Refuted: ranks dealt out in turn (overflow of the list of servers, no worker left); a number of progress ranks above 15 gives an uninitialised number."
  },
  {
   "property": "C60",
   "status": "partial",
   "theorems": [
    "C60_one_server_partial",
    "C60_world_partial",
    "C60_subgroup_refuted",
    "C60_cyclic_subgroup_refuted"
   ],
   "note": "Proved for one progress rank per node and any group, and for any number and the group of all workers, for placements with consecutive ranks. Refuted for other groups with two progress ranks per node."
  },
  {
   "property": "C61",
   "status": "partial",
   "theorems": [
    "C61_one_node_partial",
    "C61_outside",
    "C61_outside_refuted",
    "C61_count_refuted",
    "C61_left_refuted"
   ],
   "note": "On one node nothing is read outside the table, but only the mutexes of process 0 are given back. On several nodes the table by worker rank is read at the world rank: outside (proved for every first process of a node with rank >= number of workers) or the number of another process."
  },
  {
   "property": "C62",
   "status": "partial",
   "theorems": [
    "C62_one_server_partial",
    "C62_world_partial",
    "C62_overlap",
    "C62_subgroup_refuted"
   ],
   "note": "Proved for every sequence of allocations and frees by groups of any workers with one server per node, and by the group of all workers with any number of servers. Refuted for other groups with two servers per node (the server of a member is not told, C60)."
  },
  {
   "property": "C63",
   "status": "partial",
   "theorems": [
    "C63_enum_partial",
    "C63_enum_refuted"
   ],
   "note": "Proved for arrays without empty blocks; refuted with an empty block: the process that has it reports an error (pnga_access_ptr on an empty part, since lop > 0)."
  },
  {
   "property": "C64",
   "status": "partial",
   "theorems": [
    "C64_copy_partial",
    "C64_cases",
    "C64_copy_refuted"
   ],
   "note": "Proved for arrays without empty blocks; refuted with an empty block (error)."
  },
  {
   "property": "C65",
   "status": "partial",
   "theorems": [
    "C65_add_partial",
    "C65_add_refuted"
   ],
   "note": "Proved for arrays without empty blocks when the part with lo has a set element in the range or the range ends before the part does; refuted otherwise: the search for the first set element reads the mask before comparing the index and so reads past the end of the local part."
  },
  {
   "property": "C66",
   "status": "partial",
   "theorems": [
    "C66_pack_partial",
    "C66_unpack_partial",
    "C66_round_trip_partial",
    "C66_pack_refuted"
   ],
   "note": "Proved for arrays without empty blocks, including the error when the packed array is too small; refuted with an empty block (error)."
  },
  {
   "property": "C67",
   "status": "partial",
   "theorems": [
    "C67_offset_partial",
    "C67_bin_index_partial",
    "C67_bin_index_refuted"
   ],
   "note": "Proved for an odd number of processes with any history, and for an even number on the first call with at most 2000 bins; refuted otherwise: the process with a left child only subtracts workR, a global variable that still holds a value of the previous call or block of 2000 bins, so the second call writes outside the bin. Also refuted for arrays of type C_INT (accepted, but halves of the values are written) and for values not sorted by bin (read past the list). Holes: the optional sort of the bins (pnga_bin_sorter)."
  },
  {
   "property": "C68",
   "status": "partial",
   "theorems": [
    "C68_hsort",
    "C68_sort_partial",
    "C68_groups_partial",
    "C68_groups_refuted"
   ],
   "note": "Sort and grouping proved for every type but long long, with subscripts in the range of int when the values are int; refuted: subscripts of an array of C_INT are moved through an int variable (entries are lost beyond 2^31), long long stops the program, and the arrays of the caller are reordered."
  },
  {
   "property": "C69",
   "status": "partial",
   "theorems": [
    "C69_regular",
    "C69_block_cyclic_partial",
    "C69_scalapack_partial",
    "C69_tiled_irreg_partial",
    "C69_tiled_partial",
    "C69_one_process",
    "C69_grid_refuted",
    "C69_group_refuted"
   ],
   "note": "Proved for map-distributed arrays on any group with any ghost widths and restricted lists; for simple block-cyclic arrays on the world group; for ScaLAPACK and irregularly tiled arrays (no empty tiles) on the world group when the process lies inside the grid of blocks in every dimension but the last; for tiled arrays with grid extents 2 (see C17). Refuted: a process outside the grid of blocks in another dimension stops with an error although it owns nothing; block-cyclic arrays on a group fail."
  },
  {
   "property": "C70",
   "status": "partial",
   "theorems": [
    "C70_select_partial",
    "C70_regular_partial",
    "C70_block_cyclic_partial",
    "C70_subscript_refuted",
    "C70_empty_refuted",
    "C70_layout_refuted"
   ],
   "note": "Proved when every process holds one or two packed blocks, with corollaries for map-distributed arrays without ghost cells in which every process owns elements and for block-cyclic arrays with one or two blocks per process. Refuted: with three blocks the subscript can be that of another element (ind is not reset); a process without elements takes part with an uninitialised value; ScaLAPACK arrays stop with a layout error. Values that are not numbers and the group case are not covered."
  },
  {
   "property": "C71",
   "status": "partial",
   "theorems": [
    "C71_update_partial",
    "C71_width_refuted",
    "C71_group_refuted",
    "C71_duplicate_refuted"
   ],
   "note": "Proved for arrays on the world group, created by ga_create / ga_allocate, in which every process owns a block not smaller than the ghost widths, with up to 7 dimensions and local memory below 2^31 bytes: the table of messages is computed, the update ends and has exactly the stated effect for all contents. Refuted: the width check accepts a block one smaller than the ghost width and the update hangs; creation on a group that is not the world stops; a duplicate updates the memory its pointers had before the allocation. Processes go through the messages in lock step here; C73 shows that every interleaving gives the same result."
  },
  {
   "property": "C72",
   "status": "partial",
   "theorems": [
    "C72_corner_flag_partial",
    "C72_before_allocation_refuted"
   ],
   "note": "Proved for the flag set on an allocated array (same conditions as C71), both values. Refuted for a flag chosen before the allocation: it is overwritten by a loop variable and the corners are filled."
  },
  {
   "property": "C73",
   "status": "partial",
   "theorems": [
    "C73_no_deadlock_partial",
    "C73_width_refuted"
   ],
   "note": "Proved under the conditions of C71 for both values of the corner flag: every reachable state is either finished, with the memory of C71/C72 and no message left, or has a step that needs no buffering, and there is no infinite run. Refuted for the array of C71_width_refuted, which the width check accepts: no run ends."
  },
  {
   "property": "C74",
   "status": "partial",
   "theorems": [
    "ma_blocks_partial",
    "ma_calls_partial",
    "ma_blocks_refuted_piece",
    "ma_calls_refuted_overflow"
   ],
   "note": "Proved for calls whose number of bytes is below 2^62, with memory for the table of handles, as long as the program does not both change the alignment and free pieces of blocks. Refuted otherwise: MA_free_heap_piece computes the part to keep with the alignment set now, so the next block overlaps the rest of the old one; a number of elements whose bytes overflow a long is undefined behaviour."
  },
  {
   "property": "C75",
   "status": "partial",
   "theorems": [
    "ma_refusals_partial",
    "ma_refusals_refuted_leak"
   ],
   "note": "Proved under the conditions of C74. Refuted when the table of handles cannot grow: the call fails but the memory stays taken for ever."
  },
  {
   "property": "C76",
   "status": "partial",
   "theorems": [
    "ma_inquiries_partial",
    "ma_inquiries_refuted_heap_no_partition",
    "ma_inquiries_refuted_stack_check_heap",
    "ma_inquiries_refuted_stack"
   ],
   "note": "Proved: avail and stack_no_partition are exact for the stack; heap_check_stack and heap_no_partition are sound, the latter maximal if the heap did not outgrow the partition; heap, stack and stack_check_heap are sound if the partition was not outgrown. Refuted: heap_no_partition ignores fragments beyond the partition; stack_check_heap names a number the stack refuses once the heap has outgrown the partition; stack is negative or undefined once the stack has."
  },
  {
   "property": "C77",
   "status": "partial",
   "theorems": [
    "C77_copy_put_partial",
    "C77_copy_get_partial",
    "C77_copy_checks",
    "C77_copy_refuted_no_block"
   ],
   "note": "Proved for every pair of layouts (map-distributed on any groups with any ghost widths; block-cyclic, tiled, ScaLAPACK on the world), in any order of the element copies of all processes. The array that is walked must be one whose blocks direct access finds (C17, C69): tiled grids are 2 in every dimension and each process of a grid has a block; local parts are smaller than 2 GB. Refuted: a process of a grid without a block stops the copy with an error. Not modelled: mirrored arrays, callers outside the smaller group; the synchronisation covers only the smaller group, so that use of the other array at that time is excluded by assumption."
  },
  {
   "property": "C78",
   "status": "partial",
   "theorems": [
    "C78_transpose_partial",
    "C78_shapes_unchecked_refuted",
    "C77_copy_refuted_no_block"
   ],
   "note": "Proved under the conditions of C77. Refuted: the shapes are not compared, a call with an array B larger than the transposed A succeeds and fills part of B."
  },
  {
   "property": "C79",
   "status": "partial",
   "theorems": [
    "C79_straight_put_partial",
    "C79_straight_get_partial",
    "C79_reshape_partial",
    "C79_same_array_partial",
    "C79_same_array_reshape_partial",
    "C79_checks",
    "C79_reshape_get_unwritten",
    "C79_reshape_get_refuted",
    "C79_user_type_refuted",
    "C79_user_type_reshape_refuted",
    "C79_transpose_in_place_refuted",
    "C79_reshape_group_refuted"
   ],
   "note": "Proved: copies between patches of equal shape for every pair of layouts of C77 in both directions, and copies that change the shape or transpose between map-distributed arrays if the group of A is not larger and the callers meet the condition of gather and scatter (C26); any order of the element copies; also within one array for disjoint patches. Refuted: if the group of A is larger, a copy that changes the shape or transposes leaves B unwritten (in every such case); elements of user-registered types are taken from the corner of the block (blocked arrays) or from an uninitialised buffer (change of shape); a patch is not transposed onto itself; members of a group with a large world rank. Not modelled: mirrored arrays, errors of the useless gather, callers outside the group that moves the data."
  },
  {
   "property": "C80",
   "status": "partial",
   "theorems": [
    "C80_patch_partial",
    "C80_syncs",
    "C80_group_refuted"
   ],
   "note": "Proved for the layouts of C77 except tiled grids beyond the ones LLoc covers (walk_layout), any patch of the right number of dimensions, with or without elements, inside the array or not, any order of the element updates; the synchronisation ends if all processes of the default group call. Refuted: called by the members of a smaller group only, the functions wait for ever. Not modelled: mirrored arrays, user-registered types, the value conversions."
  },
  {
   "property": "C81",
   "status": "partial",
   "theorems": [
    "C81_regular_partial",
    "C81_blocked_partial",
    "C81_fill_partial",
    "C81_syncs_partial",
    "C81_idle_refuted",
    "C81_ghost_group_refuted",
    "C81_empty_block_refuted",
    "C81_fill_large_refuted",
    "C81_fill_group_refuted"
   ],
   "note": "Proved: GA_Zero and GA_Scale of map-distributed arrays without empty blocks change the elements and leave ghost cells alone; for block-distributed arrays on the world group they change the whole memory of the array; GA_Fill changes the whole memory including ghost cells if no process holds more than INT_MAX elements; without ghost cells the members of the group synchronise among themselves. Refuted: with ghost cells GA_Zero never ends if a process has no data, GA_Zero and GA_Scale never end on a smaller group; a map with an empty block makes both stop with an error; GA_Fill overflows its int index beyond INT_MAX elements and stops on block-cyclic arrays of a group. Not modelled: mirrored arrays, user-registered types."
  },
  {
   "property": "C82",
   "status": "partial",
   "theorems": [
    "C82_add_patch_partial",
    "C82_add_patch_blocked_partial",
    "C82_add_same_partial",
    "C82_add_partial",
    "C82_add_blocked_partial",
    "C82_ghost_refuted",
    "C82_group_refuted",
    "C82_rank_refuted",
    "C82_same_refuted",
    "C82_shape_refuted"
   ],
   "note": "Proved for arrays of the world group, map-distributed or of the layouts of walk_layout, every order of the element operations between two synchronisations, C being A or B allowed: GA_Add_patch with patches of equal shape (map-distributed: also different shapes with the same number of elements), GA_Add with equal dimensions; GA_Add with identical distributions without ghost cells on any group. Refuted: ghost cells in C only (with the blocks of A and B) make the code read outside A; on a permuted group GA_Add_patch stops with an error; operands with additional dimensions of extent 1 use an uninitialised subscript; GA_Add(A,A,A) uses an uninitialised type; a C larger than A and B is accepted and only partly set. Not modelled: restricted and mirrored arrays in the copies, overlapping but different patches of one array, value conversions."
  },
  {
   "property": "C83",
   "status": "partial",
   "theorems": [
    "C83_dot_patch_partial",
    "C83_dot_patch_blocked_partial",
    "C83_dot_same_partial",
    "C83_dot_partial",
    "C83_dot_blocked_partial",
    "C83_ghost_refuted",
    "C83_rank_refuted",
    "C83_group_refuted"
   ],
   "note": "Proved for an element type with an exact commutative and associative addition, every order of the copies and of the contributions: GA_Dot_patch on map-distributed arrays of the world group with patches of equal shape, of different shapes with the same number of elements, or transposed; with an array of one of the layouts of walk_layout and equal shapes; GA_Dot for whole arrays of the world group, and on any group if the distributions are identical and there are no ghost cells. Refuted: if only one of two arrays with the same blocks has ghost cells, ghost cells take part in the sum; if B has additional dimensions of extent 1, an uninitialised subscript is used; on a group that does not have all processes the calls never return if the arrays have ghost cells. Not proved: A with additional dimensions of extent 1 and otherwise equal blocks; rounding; mirrored arrays."
  },
  {
   "property": "C84",
   "status": "partial",
   "theorems": [
    "C84_get_partial",
    "C84_set_partial",
    "C84_add_partial",
    "C84_shift_partial",
    "C84_zero_partial",
    "C84_zero_refuted",
    "C84_longlong_refuted"
   ],
   "note": "Proved for every type but C_LONGLONG, A of one of the layouts of walk_layout, V of any layout, every order of the accesses: get, set, add and shift; zero only if every block that meets the diagonal begins on it. Refuted: GA_Zero_diagonal starts at the first element of the block, so with a 4x4 matrix in rows on two processes it sets (3,1) and (4,2) instead of (3,3) and (4,4); arrays of type C_LONGLONG end in pnga_error. Not modelled: rounding, mirrored arrays, the synchronisations."
  },
  {
   "property": "C85",
   "status": "partial",
   "theorems": [
    "C85_rows_partial",
    "C85_cols_partial",
    "C85_complex_refuted",
    "C85_longlong_refuted"
   ],
   "note": "Proved for the integer and real types but C_LONGLONG, A of one of the layouts of walk_layout, V of any layout, every order of the accesses. Refuted: complex numbers are multiplied part by part (i times i gives i); arrays of type C_LONGLONG end in pnga_error. Not modelled: rounding, mirrored arrays, the synchronisations."
  },
  {
   "property": "C86",
   "status": "partial",
   "theorems": [
    "C86_norm1_partial",
    "C86_norm_inf_partial",
    "C86_regular_partial",
    "C86_blocks_refuted",
    "C86_longlong_refuted"
   ],
   "note": "Proved for every type but C_LONGLONG, arrays of the world group of one of the layouts of walk_layout in which no process has more than one block (so for all map-distributed arrays, with ghost cells), exact arithmetic, every order of the contributions. Refuted: both functions reset the result for every block, so with a block-cyclic array only the last block of each process counts; C_LONGLONG ends in pnga_error. Not modelled: overflow of integer sums, rounding, NaN, arrays on groups (the reduction is over all processes)."
  },
  {
   "property": "C87",
   "status": "partial",
   "theorems": [
    "C87_elem2_patch_partial",
    "C87_elem2_patch_blocked_partial",
    "C87_elem2_partial",
    "C87_elem2_blocked_partial",
    "C87_plain",
    "C87_multiply_partial",
    "C87_multiply_real",
    "C87_divide_cpl",
    "C87_divide_real",
    "C87_max_real",
    "C87_min_real",
    "C87_max_cpl",
    "C87_min_cpl",
    "C87_multiply_refuted",
    "C87_in_place_refuted",
    "C87_longlong_refuted",
    "C87_ghost_refuted",
    "C87_group_refuted",
    "C87_rank_refuted"
   ],
   "note": "Proved for arrays of the world group, any of the listed types, for any operation that does not depend on whether an operand is the destination (or where no operand is): map-distributed arrays whose blocks coincide only if the ghost widths do, and arrays one of which is block-cyclic, ScaLAPACK or tiled in a layout of walk_layout; exact arithmetic. Refuted: the complex product is wrong if A is distributed otherwise than C (A is copied to C and the real part overwritten before it is used) or if C is A or B; C_LONGLONG ends in pnga_error; with ghost widths that differ wrong elements are combined; arrays on a group; A with an extra dimension of extent 1. Not modelled: rounding, overflow, NaN, the restrict qualifiers of the pointers (the loops are taken as written)."
  },
  {
   "property": "C88",
   "status": "partial",
   "theorems": [
    "C88_median_patch_partial",
    "C88_median_blocked_partial",
    "C88_median_value",
    "C88_compatible_refuted",
    "C88_patch_refuted",
    "C88_longlong_refuted"
   ],
   "note": "Proved: what is computed from three elements is a median for every total order; on map-distributed arrays of the world group NGA_Median_patch is right (M may be any of the operands) if each operand has the block of M on at least one process; GA_Median on whole arrays is right if one array is block-cyclic, ScaLAPACK or tiled in a layout of walk_layout. Refuted: the comparison of the distributions is negated, so operands cut otherwise on every process end in an error; the patch version overwrites elements outside the patch if an array is block-cyclic; C_LONGLONG ends in pnga_error. Not modelled: groups (default group ranks are used), NaN, rounding of absolute values."
  },
  {
   "property": "C89",
   "status": "partial",
   "theorems": [
    "C89_patch_partial",
    "C89_whole_partial",
    "C89_syncs",
    "C89_group_refuted",
    "C89_longlong_refuted",
    "C89_abs_int_partial",
    "C89_abs_min_refuted",
    "C89_abs_real",
    "C89_abs_cpl",
    "C89_add_int",
    "C89_add_cpl",
    "C89_recip_real",
    "C89_recip_cpl",
    "C89_recip_int"
   ],
   "note": "Proved: on every layout of walk_layout (map-distributed, block-cyclic, ScaLAPACK, tiled 2x2..), any group, in every order of the element operations, exactly the elements of the patch are replaced by the function, or the call ends in an error and the function is undefined for an element of the patch; the functions are the absolute value, the sum and the reciprocal in exact arithmetic, the reciprocal is refused exactly for zero. Refuted: the members of a smaller group wait for the whole world; C_LONGLONG ends in an error; the absolute value of INT_MIN / LONG_MIN is undefined. Not modelled: rounding, columns of more than INT_MAX elements, GA_Abs_value with hypot (taken as the other branch)."
  },
  {
   "property": "C90",
   "status": "partial",
   "theorems": [
    "C90_phases_partial",
    "C90_negative_partial",
    "C90_value",
    "C90_step_max_int_partial",
    "C90_patch_refuted",
    "C90_int_refuted",
    "C90_negative_refuted"
   ],
   "note": "Proved: on map-distributed arrays of the world group the temporary holds the bounds of the elements of the patch, in every order of the element operations; a process finds a negative element iff it has one in the patch; the absolute value of the largest bound is the largest step (exact arithmetic); the whole call for whole integer arrays without ghost cells of A, every process with a block, and B <= A where A > 0. Refuted: the patch version takes the maximum over elements of the temporary that were never set; integer quotients that round to 0 give the answer 0; on block-cyclic arrays a negative element is missed unless it is in the last block of its process. Not modelled: floating-point rounding; the whole call for real types (the maximum is modelled with integer keys)."
  },
  {
   "property": "C91",
   "status": "partial",
   "theorems": [
    "C91_map_partial",
    "C91_block_partial",
    "C91_symmetric",
    "C91_diagonal",
    "C91_exact",
    "C91_ghost_refuted",
    "C91_group_refuted",
    "C91_block_3d_refuted",
    "C91_type_refuted",
    "C91_empty_block_refuted",
    "C91_diagonal_map_refuted",
    "C91_diagonal_block_refuted"
   ],
   "note": "Proved for arrays of doubles: map-distributed arrays of any number of dimensions without ghost cells, with no empty block whose upper limits are positive, called with the array's group as default group; square matrices with fixed blocks on the world group. In every order of the element operations every element becomes the mean of itself and its mirror image, other memory of the array is unchanged; the result is symmetric, and the diagonal unchanged in exact arithmetic. Refuted: with ghost cells other cells are replaced; on a group that is not the default group the members do nothing and a non-member stops with an error; block-distributed arrays of three dimensions; types other than C_DBL; an empty block in the middle; in IEEE double precision the diagonal overflows (map) or underflows (blocks)."
  },
  {
   "property": "C92",
   "status": "partial",
   "theorems": [
    "C92_patch_partial",
    "C92_blocked_partial",
    "Z_semiring",
    "C92_float_refuted",
    "C92_block_outside_refuted",
    "C92_block_overflow_refuted",
    "C92_block_trans_refuted",
    "C92_block_conj_refuted"
   ],
   "note": "Proved, over any semiring of elements and for every order of the element operations within a phase: map-distributed two-dimensional arrays with C on the world group, every combination of operations, every patch, ghost widths and chunk sizes; and, when an array is block-distributed, untransposed operands with the whole of C, blocks of C being at least as wide as high. Refuted: single precision with a chunk over 256 overruns the buffer; with block-distributed arrays elements of C outside the patch change, edge blocks overrun the buffers, 't' is refused and 'c' gives a wrong product. Not covered: more than two dimensions, operands that are the same array as C, parts of operands over 2 GB."
  },
  {
   "property": "C93",
   "status": "partial",
   "theorems": [
    "C93_irreg_partial",
    "C93_shmem_partial",
    "C93_regular_partial",
    "C93_whole",
    "C93_malloc_partial",
    "C93_armci_refuted",
    "C93_irreg_group_refuted",
    "C93_shmem_group_refuted",
    "C93_regular_refuted"
   ],
   "note": "Proved, over any semiring of elements: the pipelined algorithms for irregular patches and for regular distributions and the shared-memory algorithm, C map-distributed on the world group, A and B in any distribution, every patch, operation, chunk sizes and interleaving; the latter two are only chosen when the patch is the whole of C; the buffer from pnga_malloc holds all parts without overlap. Refuted: memory from ARMCI is accepted at sizes at which the part for C ends up to 56 bytes outside; for arrays on a proper group the irregular algorithm loses tasks and the shared-memory algorithm asks for the wrong block; the regular algorithm does not end when a block of C has exactly 1024 chunks of rows. Not covered: direct access to C, C block-distributed (C92), operands that are the same array as C, parts over 2 GB."
  },
  {
   "property": "C94",
   "status": "partial",
   "theorems": [
    "C94_partial",
    "C94_cover",
    "C94_refuted"
   ],
   "note": "Proved when there are at least as many indices as processes. With more processes than rows, ranges are empty that should not be and the caller matters (refuted)."
  },
  {
   "property": "C95",
   "status": "partial",
   "theorems": [
    "C95_partial",
    "C95_safe_partial",
    "C95_rows_refuted",
    "C95_few_refuted"
   ],
   "note": "Proved for at most as many processes as rows when each process's rows have an element; without the latter assembly either aborts or gives the right matrix. Refuted: with more processes than rows memory outside of an array is written, and fewer elements than processes is an error."
  },
  {
   "property": "C96",
   "status": "partial",
   "theorems": [
    "C96_partial",
    "C96_complex_refuted",
    "C96_integer_refuted",
    "C96_empty_refuted",
    "C96_shape_refuted"
   ],
   "note": "Proved over any commutative addition for an accumulate whose scale is read as one, i.e. for double elements, n <= I <= J, a product vector of length J (which the code demands) and an element in each process's rows. Refuted: the scale is a double for all types, so that integer products are 0 (float likewise) and long ones far too large; complex types do not use the matrix; a process without elements adds uninitialised memory; a product vector of length I is an error unless I = J."
  },
  {
   "property": "C97",
   "status": "partial",
   "theorems": [
    "C97_column_partial",
    "C97_diag_partial",
    "C97_empty_refuted",
    "C97_shape_refuted"
   ],
   "note": "Columns: proved for at most as many processes as rows. Diagonal: proved for square matrices in which the diagonal block of every process has an element. Refuted: without such an element a null pointer is used, and in a matrix that is not square elements are missed."
  },
  {
   "property": "C98",
   "status": "partial",
   "theorems": [
    "C98_shift_partial",
    "C98_left",
    "C98_right_partial",
    "C98_scale_partial",
    "C98_shift_refuted",
    "C98_right_refuted",
    "C98_scale_refuted"
   ],
   "note": "For at most as many processes as rows. Left multiplication: proved. Right multiplication: proved for n <= J <= I with a vector of I elements; refuted for others, as the vector is compared with the rows. Shift: proved for stored elements; refuted where no diagonal element is stored. Scaling: proved when every process has elements, an error otherwise (refuted)."
  },
  {
   "property": "C99",
   "status": "partial",
   "theorems": [
    "C99_partial",
    "C99_int_refuted",
    "C99_empty_refuted"
   ],
   "note": "Proved for indices of the size of Integer, at most as many processes as rows of A and of B, and at least one product on every process. Refuted: with indices of the size of int the blocks are read as if they were larger, and a process without products writes outside of an array."
  }
 ]
}
# Formal model of Global Arrays — design

## What this is

`rocq/theories` contains a Rocq (Coq 8.16.1) model of parts of the Global
Arrays sources in `/repo` and proofs about it.  `properties.jsonl` lists the
properties in API terms, `MANIFEST.json` maps each one to theorem names.

Layout (flat namespace `Verif`):

* `Spec*.v`   – specifications: what a box of indices is, what "partition"
  means, what a global array is abstractly (a function from subscripts to
  values), what a lock service is, ...  They do not mention the model.
* `M*.v`      – the model, function by function, each definition with a
  comment naming file and lines in `/repo`.  No proofs.
* `L*.v`      – lemmas and proofs.
* `P*.v`      – property files: the final theorems (`exact lemma`), beside
  each a non-trivial `Example` showing its hypotheses are satisfiable, and
  `Print Assumptions` for each.

A theorem named `..._refuted` exhibits a concrete input on which the property
is false of the code as modelled (this is a finding about the code).  A
theorem named `..._partial` proves less than the property; the note in
MANIFEST says what is missing.

## Trusted base

* Coq's kernel (and `coqchk`), plus the axioms `Print Assumptions` shows for
  each theorem.  No axioms of our own.  See section "Axioms" at the end.
* The correspondence between the C text and the Gallina model, which is by
  inspection.  Every definition cites the lines it models.

## Modelling conventions

* `Integer` (64-bit) arithmetic is modelled by `Z` without overflow unless a
  property is about overflow/truncation; where C code uses 32-bit `int`
  conversions that matter (read_inc increment, strided byte counts) the
  conversion is modelled explicitly.
* C integer division/remainder is `Z.quot`/`Z.rem` wherever an operand can be
  negative, `Z.div`/`Z.modulo` where both are known non-negative.
* C arrays of length ndim are `list Z`; a pointer into an array (`mapc+off`)
  is the corresponding list suffix.
* Loops with data dependent exit are structural recursion over the loop range
  or fuel-bounded recursion, with a theorem that the fuel suffices.
* Out-of-bounds reads/writes, use-after-free, division by zero and `int`
  overflow are explicit outcomes (`None`, or a `UB` constructor) wherever the
  property is about them.  `pnga_error` (abort) is an explicit outcome.
* Floating point: where a float only guides a search (`findblock`, the
  decomposition heuristic) it is replaced by an arbitrary value, i.e. the
  theorems hold for every value the float could take.
* Element values: an abstract type, or `Z` for integer accumulate.  Floating
  point accumulate is *not* covered by order-independence claims.
* Data transport (ARMCI/ComEx) is modelled as loads/stores on per-process
  memories; concurrency as arbitrary interleavings of element-level atomic
  steps.  Network, progress engines and MPI are not modelled.

## Per property plan

* **C01** — Model `ga_ownsM_no_handle`/`ga_ownsM` REGULAR on flat `mapc`; specification = box membership.  Proof: mixed-radix bijection + 1-D interval partition by induction on dimensions.
* **C02** — Model `findblock` with an arbitrary integer guess in place of the float expression and `pnga_locate`; prove it returns the unique owner.
* **C03** — Model the map construction loop of `pnga_allocate` and its call of `ddb_h2`; prove validity of maps and buffer bound for all inputs.
* **C04** — Model the divisor listing, sieve and distribution of primes of `ddb_h2`; the float comparison is an arbitrary oracle; prove product = npes.
* **C05** — Model `pnga_locate_region` REGULAR (findblock on both corners, odometer over sub-grid, clipping); prove tiling.
* **C06** — Model `pnga_locate`, `ga_ownsM` for BLOCK_CYCLIC; prove existence/uniqueness.
* **C07** — Model index decode/encode macros; prove for SCALAPACK/TILED/TILED_IRREG.
* **C08** — Model the BLOCK_CYCLIC branch; expected refuted (interior region).
* **C09** — Model the SCALAPACK/TILED branch; expected refuted (radix).
* **C10** — Model `pnga_compare_distr` REGULAR; prove soundness for strictly increasing maps, refute with empty blocks.
* **C11** — Model REGULAR branch of iterator; prove exactly-once for every permutation.
* **C12** — Model swap loop over arbitrary random stream; prove `Permutation`.
* **C13** — Model BLOCK_CYCLIC branch of the iterator as state machine; prove exactly-once when blocks>=processes; refute otherwise and for strided transfers from non-zero ranks.
* **C14** — Model SCALAPACK/TILED branch; prove when no grid extent exceeds the number of blocks; refute otherwise.
* **C15** — Model `gam_Location`, memory sizing in allocate; injectivity via mixed-radix.
* **C16** — Model address computation of each block-type distribution; injectivity and bounds.
* **C17** — Model `pnga_access_block_grid_ptr`; compare with iterator offsets; TILED expected refuted for grids with extent 1.
* **C18** — Refinement: memory = process -> offset -> value; put as sequence of strided stores; abstraction function = storage map of C15/C16.
* **C19** — As C18 for get.
* **C20** — Corollary of C18+C19.
* **C21** — As C18 with addition.
* **C22** — Element updates as atomic steps; permutation invariance of sums; all interleavings.
* **C23** — Commutation of disjoint writes for all interleavings.
* **C24** — Atomic fetch-and-add steps; induction on the interleaving.
* **C25** — Model `(int)inc`; refute for large increments, prove within range.
* **C26** — Model counting/linked-list grouping (`gai_gatscat_new`); prove equivalence with elementwise transfer for callers whose rank indexes the table of the group; refute for others. `scatter_acc_local`, the 2-D variants and the old `gai_gatscat` (not compiled) are not modelled.
* **C27** — Model skip arithmetic (`MStrided`); a request selects elements (`strided_sel`) and gives each a buffer position (`strided_ix`); proved for <=2 dimensions with ndim leading dimensions, refuted for 3 and for ndim-1 leading dimensions.
* **C28** — Model extra rank translation and the missing iterator reset (the start offset is an arbitrary value `junk`); refuted.
* **C29** — Model range computation, patch odometer and the calls of put/get/acc per patch (`MPeri`); each index of the request has its element at the wrapped index (`wrapv`) and its buffer position; proved for requests within one period on each side (`peri_dim`), refuted for requests far below the array and for two periods that end beyond twice the extent.
* **C30** — Pool state machine with explicit doubly linked lists (`MNb`); transfers have names, completion of a transfer is its name entering `p_done`; invariant by induction on histories of operations, waits and tests (`LNb.good`).
* **C31** — Same invariant.
* **C32** — Same invariant.
* **C33** — Model fence_array bookkeeping per operation kind; prove for put/acc; check scatter.
* **C34** — Model cache list and `gai_mem_copy`; prove for tight leading dimensions, refute for padded.
* **C35** — Model the trim loop with explicit freed nodes; prove invariant length<=1 so that the loop is safe.
* **C36** — Model both branches; refute.
* **C37** — Model handle table; invariant by induction on histories.
* **C38** — Model memory counters; invariant by induction on histories.
* **C39** — Model; refute with three changes.
* **C40** — Lock service as transition system; prove.
* **C41** — Refute for every number of processes above one (all mutexes share one lock).
* **C42** — Model list sort and map construction; prove.
* **C43** — Model split arithmetic; prove partition; refute count.
* **C44** — Model checks; refute.
* **C45** — Model table; invariant.
* **C48–C50** — C18–C22 for block-cyclic, ScaLAPACK and tiled arrays on the world group with at least one block per process (`block_layout`).
* **C51** — Byte strides are C ints (`to_int`); refuted with a 3-D array.
* **C52, C53** — Model `pnga_access_ptr`/`pnga_access_idx` on map-distributed arrays; the pointer is compared with the placement of C15; refute index access on restricted arrays.
* **C46** — Model halving loop and sub-block odometer; prove tiling where block size stays positive; refute exact 2^31 and division by zero.
* **C47** — Model `gai_mem_copy` (`MOdo`) with its odometer; prove it enumerates the mixed-radix box; the int strides overflow for buffers of 2^31 bytes.
* **C54** — Byte-level model of `nb_puts`/`nb_gets`/`nb_accs` and their handlers (`MComex`): choice of algorithm, packing, chunked messages in both directions, typemap of the subarray data type.  The settings are arbitrary.  Registration cache, fences and locks are not part of it; messages between two processes arrive in order; source and destination do not overlap.
* **C34, C35, C55** — Model of `pnga_get` with the read cache (`MCache`): numbered entries, freed entries are absent, so use after free and double free are failures.  Invariant: at most one entry, which holds its region of the array; generic in the read of the array, instantiated with C19 and C49.
* **C33, C56, C57** — Model of GA fences over the ComEx servers (`MFence`), from the view of one caller: one FIFO queue of messages per server, served at any moment; direct (shared memory) access may be chosen for every piece.  Invariant: a server with queued messages is marked; arrived ++ queued = issued.  Fences and barriers of other processes, and the data carried by a store, are not modelled (a store is a number).
* **C36, C58** — Model of `pnga_nbput_notify` and its table of 100 slots (`MNotify`).  The two puts of one call run in any order that keeps the order per memory cell (justified by C57).  The notify source is an element of the same user memory as the put buffer; elements are byte lists because the code increments bytes.
* **C37–C39** — Model of the table of arrays and of the memory accounting of one process (`MHandle`), with create, allocate, overlay, duplicate, destroy, deallocate, limits, `GA_Getmem`/`GA_Freemem` and the properties READ_ONLY and READ_CACHE.  Results are `Done`, `Abort` (`pnga_error`) or `Undef` (undefined behaviour).  Sizes of local parts and the votes of the other processes are arbitrary inputs.  The specification (`SpecHandle`) is a ledger (`book`) of what the program can know from its own calls and their answers; the theorems say that the code does what the ledger says after every history of `allowed` calls (a simulation, `LHandle*`).  What `allowed` leaves out is refuted in `PHandle`.
* **C40, C41** — Transition system of all processes, ComEx lock servers and messages (`MLock`): events are calls of lock and unlock, the handling of one message by a server, and the return of a lock call; a schedule is any list of events.  Messages between one process and one server stay in order, all others may overtake each other.  `phase` (`LLock`) lists the nine joint states of a process and a server about one ComEx mutex; the invariant is that every pair is in one of them.  Memory ordering of data accessed under a lock is not part of the claim.
* **C42, C43** — Group table, maps and default group of one process with the list of ComEx groups behind it (`MGroup`).  The program's ledger (`SpecGroup`) records the members of every group; `gsim` (`LGroup`) relates the two and is preserved by every allowed call.  An ARMCI/ComEx group is its list of members; MPI's own work is trusted (`MPI_Group_incl` picks the listed ranks and fails on ranks out of range).  The histories' hypothesis `history_ok` takes the answers from the model since handles are chosen by the library.
* **C44** — The checks of the two calls that set irregular distributions (`MIrreg`), on top of the distribution model of C01 and C06; the user's map is the list behind the pointer, reading beyond it is undefined.
* **C45** — The table of types (`MType`) against a ledger of live types (`SpecType`); sizes of built-in types are arbitrary.  Arrays of a type that is deregistered are not looked at.
* **C59** — Start-up of ComEx on progress ranks (`MRanks`): the host identifiers of all processes (the list `MPI_Allgather` gives), the choice of node ranks, masters and the lists kept at start-up, for every placement.  The specification (`SpecRanks.progress`) says what a process may rely on.  `MPI_Comm_split` is its contract (colour, order by old rank).
* **C60** — The messages of a collective allocation as a function of placement, group and sizes: what every member enters and what it sends to its server, with the table bound of the message.  `notify_ok` (`LRanks3`) lists what a group needs; it is proved for the two kinds of groups of the theorems and fails for the refuted ones.
* **C61** — `comex_destroy_mutexes` with reads outside the table of numbers of mutexes as undefined behaviour; server side release included.
* **C62** — The registration cache (`MReg`) as one list of entries per holder and owner, with intersection and uniqueness checks of the code; a program is a list of collective allocations and frees, each run completely (members in group order, then servers) before the next.  Addresses are what the operating system gives (not in use).  Invariant (`LReg3`): the list of every holder is the list of live memory it should see.
* **C63–C66** — Operations with a mask on one-dimensional arrays (`MSparse`).  An array is a function of the subscript; a local part is a range of subscripts and reading outside it is `Undef`; every function is the work of one process between two synchronisations, and the theorems quantify over the order of the processes.  `LLine` turns a one-dimensional map distribution without empty blocks into an increasing sequence of block starts, on which the scans are proved block by block.  The global sums (pnga_gop) are taken as sums over all processes.
* **C67** — Binning (`MBin`).  The messages of the tree in sgai_bin_offset are function values: each receive names its sender, and a pair of processes exchanges one message per direction and call.  `workR` is state by process and slot, carried through blocks of 2000 bins and from call to call.  The puts of all processes are a list and the theorem quantifies over its permutations.  `LBin` proves that the tree visited left, right, own is an order of all processes and that offsets are the sums of the contributions before.
* **C68** — Heap sort (`MSort`).  Arrays sorted together are one array of records at positions 1..n; `w` stands for what the temporary variables of SWAP make of an element (an int for C_INT).  Loops have fuel n, shown sufficient by the theorem itself (the result is sorted).
* **C69** — Local iterator (`MLoc`).  A step is a function of the state (count, or process index and index); the walk is drained with fuel, and the theorems say that from some fuel on the answer does not change.  `local_cover` ties the blocks to the places of elements used by C11–C17 (`reg_place`, `block_place`, `scalapack_place`), so the theorem is about the same memory that put and get use.
* **C70** — Selection (`MSelect`).  Memory of a process is a partial function of offsets (reading outside is `Undef`); `key` is the number compared.  `sel_scope` is MPI_MINLOC / MPI_MAXLOC over the infos of all processes; an info that was never set is `Undef`.  The world is the default group.
* **C71** — Ghost cell update (`MGhost`, `SpecGhost`).  pnga_update_ghosts calls pnga_update4_ghosts, which always returns TRUE, so the fallback pnga_update1_ghosts is never reached and is not modelled.  The model has the message table of pnga_set_update4_info (buffer size, width check, neighbour search, pointers, strides, counts), the packing of armci_write_strided / armci_read_strided with its assertions, and the exchange in all processes.  A memory cell is (process, allocation, offset); `seg p` stands for GA[].ptr[p].  A receive without a matching send of the right length is `None`.  Simplifications: the processes take part in the messages in lock step (each packs from its own memory, and a receive names sender and a tag used once per update; C73 removes this); the table is a list (its layout in GA[].cache, which is misaligned for odd numbers of dimensions, is not modelled).
* **C72** — Corner flag.  `corner_flag_alloc` is the flag pnga_allocate stores (the loop variable reused as its value); `duplicate_ghosts` computes the table with the pointers from before the allocation.
* **C73** — Messages of the ghost update (`MNet`).  Every process is a small state machine: the entry it works on, the sends and receives left for it in the order chosen by ghosts.c 1804-1838 and 1890-1920, and the two buffers.  `net_step` interleaves the processes; a send either meets the matching receive (sender, tag, length within the buffer) or is buffered, so both eager and rendezvous message layers are covered.  A wrong length or a missing partner is a state without a step.  Proof: sends and receives of a message are given slots 0–2; the slot of a send equals the slot of its receive, and the process that is least far (message, slot) can always move; the memories are those of the lock-step exchange of C71.  Simplification: a receive may take any message of the right sender and tag (each tag is used once per pair of processes).
* **C74–C76** — The MA allocator (`MMa`, `SpecMa`), with 64-bit addresses and sizes that wrap (`u64`).  A descriptor `ad` is a record with its address; the three lists of descriptors are Coq lists in list order; the table of handles has its slots, states, counter and search position.  `ma_step` is one call, `ma_run` a program; the program's ledger `ma_live` is computed from calls and results alone.  The room malloc has for the growing table is an argument of the call.  The number of bytes of a block is a signed multiplication (`mul64`; overflow is `None`).  Invariant (`LMaS.inv`): heap and stack are chains of tiles (`LMaH.chain`), free tiles never adjacent, the last heap tile in use; each handle names the address of its descriptor.  Checksums and guard words are represented by the space they take; verification of them (MA_verify_allocator_stuff), statistics, debugging output, the auto-verify and hard-fail switches, and the list iterator MA_get_next_memhandle are not modelled.  Sizes of datatypes are powers of two; the descriptor has 80 bytes and the guard 4 (LP64).
* **C77, C78** — GA_Copy and GA_Transpose (`MGcopy`, `SpecGcopy`).  A process yields the list of element copies it makes, pairs (cell of B, cell of A), composed from the local walk (C69) and the transfers of the one-sided put or get (C18, C19, C48, C49).  `labelled` (in `LGcopy`) says that such a list has exactly one copy per subscript of a set, between the places of that subscript in A and B; it is closed under concatenation over disjoint sets and under permutation, and implies the effect on memory (`copied`).  A is a heap that is only read, B another one.  The temporary buffer of the transposition is the list of stores into it; a read takes the last store, a store outside is undefined.  Mirrored arrays and the synchronisations are not modelled.
* **C79** — GA_Copy_patch (`MCpatch`, `SpecCpatch`).  As C77; the correspondence of elements is stated with positions in column-major order (`corresponds`), the model follows the code: intersection of the patch with the caller's block, linear index and its decomposition (`dest_indices`), the odometer over the piece, and scatter (C26).  `base` says whether the element type is one the `switch` statements list.  The sum `base` of lines 388-395 uses one leading dimension that is never set, but the product with it is not used; the model computes the difference `idx - base` directly (`corner_offset`).  In the branch that gathers, the result goes to a buffer that is freed, so the model yields no copies; errors of that gather are not modelled.  Copies within one array run on one heap (`self_elem`).
* **C80** — GA_Fill_patch, GA_Zero_patch, GA_Scale_patch (`MPw`, `SpecPw`).  The model yields the cells each process updates (`patch_cells`); the update is any function `f` of the old value, so the theorem covers all three functions and every element type.  Barriers are modelled apart from the updates: the trace of a process is the list of groups it synchronises with, `syncs_end` says that all callers can get to the end.  A barrier that nobody else joins never ends.
* **C81** — GA_Zero, GA_Scale, GA_Fill (`MPw`).  As C80.  `owned` is the memory the allocation of the array gives to a process (C34), so `updated_cells` speaks of ghost cells and of padding too.  `no_empty_block` is the condition under which pnga_access_ptr accepts the blocks of the caller; the map-distributed theorem needs it and `C81_empty_block_refuted` shows that it is needed.
* **C82** — GA_Add, GA_Add_patch (`MAdd`, `SpecAdd`).  The operation works on several arrays, so the memory is a `store`, a heap per handle.  A process yields a list of phases (a copy, a scaling and the local additions are separated by synchronisations of all processes); `all_runs` lets the element operations of all processes in one phase happen in any order and demands that none fails.  Arithmetic is abstract: `sa v` is alpha times v, `acc u v` is u plus beta times v.  Temporary arrays are handles `ta`, `tb` with the layout of C and unspecified contents; their creation is not part of this model.
* **C83** — GA_Dot, GA_Dot_patch (`MDot`, `SpecDot`).  A process yields the elements it copies to the temporary array (if there is one) and the pairs of cells whose products it adds; `dot_parts` performs the copies in a given order and computes the contribution of every process.  The specification `dot_value` quantifies over all enumerations of the patch and names the two elements of every product through `corresponds`, without reference to blocks or leading dimensions.  The element type is abstract with an associative and commutative addition (`sums_freely`): rounding is not modelled.  The reduction over the processes is a sum in any order.
* **C84, C85** — diagonal, rows and columns of a matrix (`MDiag`, `SpecDiag`).  A process walks its blocks with the local iterator and yields pairs (cell of A, cell of V); the buffer filled by pnga_get is the list of transfers of `MXfer`, looked up by position.  Values are real numbers or pairs over an abstract type of numbers; the statements of the loop bodies (`code_add`, `code_mul`, …) are separate from the mathematical operations of the specification (`sum_of`, `product_of`).  The switch over the element types is `listed`.
* **C86** — GA_Norm1, GA_Norm_infinity (`MNorm`, `SpecNorm`).  The numbers are abstract: an addition that is associative and commutative for the sum, a total order for the maximum, an absolute value `nrm` and, for the first element in GA_Norm_infinity of reals, the value itself (`sgn`).  The variable that is reset for every block is modelled (`over_blocks`), which is what refutes the property for block-cyclic arrays.  The reduction is a sum or maximum over the contributions in any order.
* **C87** — GA_Elem_multiply, _divide, _maximum, _minimum and the patch versions (`MZip`, `SpecZip`).  A step of a process is one element: a copy to a temporary, or the operation with its operands and its destination.  The operation is a function of the values *and* of flags that say which operands are the destination itself, since the complex product stores its real part before it reads the operands for the imaginary part.  A step without a result (division by zero, `pnga_error`) stops the run; `every_run` says what holds of every outcome of every interleaving.  The arithmetic of complex division, maximum and minimum is exact (over Q).  `restrict` is ignored.
* **C88** — GA_Median, NGA_Median_patch (`MZip`, `SpecZip`).  Steps and runs as for C87 with three operands.  `all_differ` is the reduction of the (negated) comparisons of the blocks; with it the model uses A itself or a temporary laid out as M.  The block loop does not cut the block with the patch, as in the code.  `is_median` is stated for any total order of keys.
* **C89** — GA_Abs_value, GA_Add_constant, GA_Recip (`MUn`, `SpecUn`).  A process yields the cells it updates; `try_elem` applies a partial function, so that an undefined result (zero, overflow) stops the program.  `updated_by` and `undefined_in` are stated on places, not on lists of cells.  Real and complex functions are taken over the rationals; the square root is a parameter that has to be right for the one number it is applied to.
* **C90** — GA_Step_max (`MStep`, `SpecStep`).  Composition of the models of C87 (elementwise operation into a temporary), C80 (update of the patch) and C70 (maximum).  `largest_step` says what the answer means, without reference to the quotients.
* **C91** — GA_Symmetrize (`MSym`, `SpecSym`).  Map-distributed branch: the two index sequences of `gai_add` are modelled as the loops compute them, and shown to pair the cell of `x` with the buffer cell of `mirror x`; the buffers are filled before a synchronisation, so the reads see the old memory.  Block branch: composition of the models of GA_Transpose (C78) and GA_Add (C82) as phases.  Arithmetic is a parameter; `C91_exact` instantiates it with the rationals, the refutations about the diagonal with the IEEE double operations of `Coq.Floats.SpecFloat` (no axioms).
* **C92** — GA_Matmul_patch (`MMat`, `SpecMat`).  The chunk loops, the round-robin deal of the chunks and the sizes of the parts of the one buffer are modelled as in the code; BLAS gemm is assumed to compute the exact product in a semiring given as parameter, so rounding is out of scope.  The calls yield the cells scaled first and, after the synchronisation, the accumulates; the theorem quantifies over every interleaving.  The floating-point cube and square roots that give the chunk size are parameters with the properties needed.  `matmul_basic` is the code for block-distributed arrays.
* **C93** — GA_Dgemm (`MDgemm`, `SpecDgemm`).  `irreg_loop` is the pipelined task loop with its two buffer parts per operand, the toggles that say which part is fetched into and which is computed from, and the fetch of the next task's operands that is issued before the present task is computed; a non-blocking get puts its values into the part when it is called, so a part that is fetched into too early shows as a wrong product, but a missing wait does not show.  `shm_cols` is the shared-memory algorithm, in which the first chunk of the inner range is put and later ones are accumulated; `interleaved` is any merge of the processes' operations that keeps each process's order at each place.  gemm and roots as for C92.  `part_a`, `part_b`, `part_c` are the byte positions of the parts of the one buffer.  `reg_rounds` is the algorithm for regular distributions on several nodes: the task list of at most 1023 tasks (`task_list`, whose saved state is represented by the rest of the (j,k) pairs), the pipelined loop over it, and the repetition while chunks are left.
* **C94, C95, C96** — sparse matrices (`MSprs`, `SpecSprs`).  Elements are lists per process in the order of the linked lists of add_element.  The limits of rows and columns are the code's two `while` loops with fuel (two rounds suffice when there are at least as many indices as processes).  `send_all` runs over the pairs (sender, receiver) in any order `o`: each read-increments the receiver's count and puts the elements at the place it got; `o'` is the order for the second exchange.  The sorting into column blocks and rows follows the two sets of linked lists (`bin_one`, `walk`) and yields the offset tables; `access_col_block` reads them, and reading outside of a table is `Undef`.  A global array made with fewer elements than processes is `Abort`, as ga_create demands at least as many elements as processes.  `matvec` treats the processes one after another, since each only accumulates into its own rows of the result, after the result is zeroed and synchronised; `vsum` is `None` before the first block has been accumulated.  `alpha` is what the accumulate reads as its scale at the address of a double 1.0, which is one only for double elements; `one_r_int` and `one_r_long` are its bytes read as C_INT and C_LONG on a little-endian machine.  Sizes of integers, `GA_Error` texts and freeing of memory are left out; so is the node-local use of shared memory.
* **C97, C98** — diagonal, columns and updates of sparse matrices (`MSprs2`).  `represents` (in `PSprs`) says what the blocks on all processes hold and that no two rows of blocks share a place (`apart`); assembly establishes it (C95) and the updates keep it.  `upd_cells`/`upd_rows`/`upd_blocks` are the in-place loops, which read columns and write values at positions counted from the first local value; a position outside is `Undef`.  New vectors have the distribution of the rows, so that a process writes its own part; the collective set-up of that distribution is not modelled again.  For complex types the factors of the right multiplication are in the other order.
* **C99** — the product of sparse matrices (`MSprs3`).  `SpecSprs3.is_product` says what the product is, from lists of elements only.  `add_product` is the hash table (`bins` again for top and list), with a finite number of steps for a chain and `Undef` for an index outside; `LSprs8.inv` is its invariant and `LSprs9.capacity` shows that bufsize is large enough.  `get_block` reads the blocks of another process through `as_integer`, which joins two 4-byte indices as the code does.  The C result goes through the same arrangement in blocks and rows as assembly, but for the missing case of no elements.
* **C100, C101** — sparse matrices from dense arrays and back (`MSprs4`).  A dense array is the list of what the processes have (`SpecSprs4.dpart`: bounds, memory, distance of columns), and `dense` says that these make up an array; C01 and C06 prove it of the distributions.  `from_dense` ends in `assemble` (C95).  `to_dense` uses the model of the irregular distribution (`MIrreg.set_irreg_distr`, `MDist.owns`) with the map that the code makes, and writes to local memory of a given size; a write outside is `Undef`.  pnga_access_ptr is reduced to the parts of the calling process.
* **C102** — the product of a sparse matrix and a dense array (`MSprs5`).  The array B is a function of its two (Fortran-order) indices, so NGA_Get of a block is a copy into a buffer (C02, C03); a read outside of the block that was copied is `Undef`, and a bad block is `Abort`.  The product is made with the irregular distribution like C101 and the local part is changed by `mul_targets`.  Values are any type with an associative and commutative addition.
* **C103** — the product of a dense array and a sparse matrix (`MSprs6`), for both interfaces.  Buffers, blocks and the distribution of the product are as in C102; blocks of B are read as in C99.  For complex types the two parts of an element of A are read separately (`rd_a`), since the code uses different places for them.  `LSprs12.added` says that memory is changed by adding a list of products, so the order of the loops does not matter.

- **Export of sparse matrices (C104, MSprs7.v).** `pnga_sprs_array_export` on process 0: the
  walk over processes, rows and blocks with the offset `loffset`, the lines (row, column, value)
  it writes, complex values read as pairs of numbers at `2*k+loffset`, and the error of `pnga_get`
  for the empty range of a process without elements. Not modelled: the two header lines, the text
  of the numbers, errors of the file.

- **Memory of sparse arrays (C105, SpecSprs6.v, MSprs8.v).** The table of sparse arrays on one
  process with the six pointers of an entry, and an explicit heap of numbered pieces of memory:
  `malloc`, `free` (a second free is `Undef`) and access (outside of a live piece is `Undef`).
  Which calls a program may make is specified apart from the model. Not modelled: the global
  arrays of an entry, temporary buffers, failure of `malloc`.

- **Work buffers (C106, MGalloc.v).** `ga_malloc`, `ga_free` and `GA_Register_stack_memory` over
  byte addresses, with the blocks that the allocator gave out and the Integer that `ga_malloc`
  stores in front of a buffer; a write by the program destroys the Integers it overlaps. Where
  the allocator puts a block is a parameter of each call; that it does not overlap blocks in
  use is a hypothesis of the theorems. Not modelled: overflow of sizes, the guards of MA
  (in the model of C74–C76).

- **Copies of sparse matrices (C107, MSprs9.v).** The fields of a matrix that the queries use
  (dimensions, group, `nprocs`) with what each process has, `NGA_Sprs_array_duplicate` and the
  queries. The default group and the sizes of the groups are parameters. Duplicating and
  copying the global arrays is taken as exact (C79); `g_blk` is not modelled.

## Axioms

Every theorem listed in MANIFEST.json is closed under the global context
(`Print Assumptions` in the `P*.v` files prints "Closed under the global
context" for each of them); no axiom of the standard library is used.

## Parts of the code not modelled

One-sided transfers (C18–C23, C48–C51): the strided transport calls are
represented by their contract (the list of element transfers of a
count/stride description, `MXfer.xfer_elems`); non-blocking calls complete in
any order before the final wait; element updates are atomic.  Mirrored arrays,
READ_ONLY/READ_CACHE properties, device memory and field-wise transfers are
not part of the transfer model.

MPI/ComEx transport internals, Fortran/C API wrappers, I/O (unless listed above), performance statistics, profiling, GPU/device paths.

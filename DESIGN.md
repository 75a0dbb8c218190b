# Design: a Rocq model of liballocs

The model covers the run-time logic of liballocs (`/repo`, read as text only), and the
parts of its tools that generate the tables the run time searches.  It uses the Coq
standard library alone.  Each subsystem has

* `X_model.v`  — the model: definitions only, each citing the file and lines it models;
* `X_spec.v`   — where needed, an independent specification that uses none of the model's helpers;
* `X_proof.v` and similar — lemmas;
* `X_props.v`  — the property theorems, each followed by `Print Assumptions`, with an
  `Example` on a concrete state that meets its hypotheses;
* `X_refute.v` — counterexamples, where they are too many for `X_props.v`.

## Conventions

* Addresses and sizes are `Z` (`N` for some bit patterns).  Wrap-around, masking and
  truncation are written out (`mod 2^64`, `mod 2^32`) where the code's result depends on them.
* Heap-allocated records that the code links by index (`big_allocation`) are a
  function from index to record.  There is no functional extensionality: statements are pointwise.
* An operation that can `abort()`, fail an `assert`, or reach undefined behaviour
  returns a distinct outcome (`Abort`, `UB`), never a normal-looking value.  Where
  debug and release builds differ, `dbg : bool` says whether assertions are compiled in.
* Loops are structural recursion, or recursion on fuel with a distinct
  out-of-fuel outcome (`Fuel`) that the theorems exclude.
* If the faithful model falsifies a property, a theorem named `..._refuted` gives a witness.
  A theorem named `..._partial` states the property under the restriction that does hold.
  `MANIFEST.json` says of each partial property what is missing or false.
* Most `_partial` properties are partial because the code does not have the full property.
  The restriction is then shown necessary by a refutation.

## Per-property plan

| id | model | proof method |
|----|-------|--------------|
| C01 | `Big`: record table and page index as functions; each call a step | invariant by induction over histories: a page's entry is the deepest record spanning it |
| C02 | `Big` | representation invariant: child lists as an inductive linked-list predicate (`Big_links`) |
| C03 | `Big_delete`: deletion recursion on the tree | frame lemma and lookup corollary |
| C04 | `Big_create`: creation with all abort branches | case analysis over the step lemmas of C01/C02; counterexample for swallowed records |
| C05 | `Big_more`: searches of the top-level list | induction over lists; counterexample for "at or above" |
| C06 | `Big_common` | soundness by induction; counterexample for unequal depths |
| C07 | `Big_range`: loop over children with deletion | induction over lists; counterexample for unaligned ranges |
| C08 | `Big_split` | partition and frame lemma; counterexamples |
| C09–C12 | `Map`: mapping sequences of eight slots; the spec is a map from pages to attributes | refinement for every history (`Map_hist`); counterexamples |
| C13 | `Brk`: the break record over `Map` | invariant over histories; counterexamples |
| C14 | `Heap`: bitmap as a set of slots, over `Big` | refinement to a finite map of chunks; counterexamples |
| C15–C17 | `Insert`: 64-bit word with bit-fields | arithmetic, round trips, idempotence over histories |
| C18–C20 | `Cache`: array of entries with linked MRU list | representation invariant; refinement to an abstract LRU |
| C21 | `Cache` with an abstract object store | coherence invariant over histories |
| C22–C25 | `Type`: uniqtype trees | induction over trees; the spec is an inductive containment relation |
| C26, C43 | `Walk`: allocation trees, callback as state transformer | induction |
| C27 | `Bfs`: object graph, colour tree, linked queue | invariant and termination measure |
| C28 | `Intern`: table of names | names are read back uniquely; invariant over histories |
| C29 | `Allocsites`: loaded vectors | invariant over load/unload histories |
| C30 | `Memtable` | arithmetic |
| C31 | `Alloca`: stack words, frame records | invariant over nestings of frames |
| C32 | `Small`: buckets of layered entries | refinement to a set of objects, for every history |
| C33 | `Packed` | invariant over histories of queries and walks |
| C34, C49 | `Linear` | invariant over histories; sorting and search |
| C35, C48 | `Static`: generated tables and their search | sortedness of the generated table, then search |
| C36 | `Auxv` | interval case analysis |
| C37, C47 | `Frame`: generated tables, list of frames | induction over frames |
| C38, C45 | `Life`, `Life_rc`: policies, nested releases | invariant over histories, fuel bound by the number of live objects |
| C39 | `Metavec` | arithmetic and counting |
| C40 | `Addrlist` | induction over additions |
| C41 | `Big_stack` | arithmetic and forest step |
| C42 | `Big_resize`, `Big_preext` | step lemmas; counterexample for a page shared with a neighbour |
| C44 | `Remap` over `Map` | step lemmas; for moves an invariant of the loop over the entries; counterexamples |
| C46 | `Copy`: type trees | induction over types; the spec enumerates pointer positions |
| C50 | `File` over `Big` | step lemmas, then an invariant over histories of loads and unloads; counterexamples |
| C51, C52 | `Scan` over `Map`: lines, gathered sequences | invariant over the list of lines: recorded so far, gathered, to come; counterexamples |
| C53 | `Exe`: program headers | invariant over the list of segments; counterexamples |
| C54 | `Wrap`: programs as trees of calls, thread-local variables | induction over programs; the spec keeps the stack of calls; counterexamples |
| C55 | `Trap` over `Map`, `Brk`: system calls, a kernel as a relation on address spaces | step theorem, then histories; counterexamples |
| C56 | `Meta`: strings, bounded buffers, a file system as functions, reference counts | arithmetic on lengths; the spec says which file is best; counterexamples |
| C57, C58 | `Tname`: symbols, string tables, callback as state transformer | unique reading of symbols; induction over the symbol table; counterexamples |
| C59, C60 | `Detour`: memory as bytes, an arbitrary instruction decoder, program headers | a run of instructions is compared by bytes and referents; induction over instructions, then over symbols; counterexamples |
| C61 | `Gather`: classified lines of a disassembly, the awk automaton, two sorts, the merge, the table, lookup | the automaton simulated block by block; a two-pointer merge over sorted lists; binary search from C29; counterexamples |
| C62 | `Unw`: partial memory of words, cursors, the walk with any callback; frames of `Frame` | induction over frames; the stack pointer as measure; composition with C37; counterexamples |
| C63 | `Query`: the questions put to the index of `Big`/`Map`/`Brk`, each result written or not | case analysis over the lookup theorems (C01, C41, C13); a contract for the other allocators; counterexamples |
| C64 | `Pheap`: the wrappers of the private heap's allocator over the index of `Big`; bitmaps as functions; the emulated break | arithmetic modulo 2^64; induction over histories interleaved with arbitrary changes of the forest; counterexamples |
| C65 | `Rtu`: the process's types as a list, set-up as a list of look-up-or-make steps | invariant over the steps; counterexamples |
| C66 | `Start`: flags and a list of actions per initialiser, with an oracle for the calls made during each piece of work | induction on runs; invariants on flags; counterexamples |
| C67 | `Sig`: the signal state, the C library's two calls and their wrappers; the printing of numbers; the link map's names | induction on histories; simulation against the C library alone; counterexamples |
| C68 | `Retype`: the heap index of C14 over a byte memory holding the words of C15 to C17, with the setters of query.c | invariant relating each live chunk's word to its type, over histories with program writes; counterexamples |
| C69 | `Conc`: the calls of `Big` as programs of single accesses and lock operations, threads interleaved | each call's code shown to run as `Big` says and to hold the lock; simulation by a serial history; a well-founded order on configurations; counterexample schedules |
| C70 | `Hconc`: the heap index as programs of single accesses and lock operations | C69's simulation, generalised by an invariant and reads outside the lock; lookups: every word that can be read has the chunk's bits right; counterexample schedules |
| C71 | `Early`: the search back for the heap in early lookups | exact characterisation over `reach`; `brk_move_exact_partial` for the move; counterexamples from C13's histories |
| C72 | `Lock`: the locking done by each call, other behaviour arbitrary; any number of locks and threads | locks are taken in order of rank (small objects, arena, table, stream), an invariant of every schedule; runs end by well-founded induction; a counterexample schedule |
| C73 | `Err`: the stream for messages, opened at every message | induction over messages; characterisation of the file at exit; counterexample |
| C74 | `Pconc`: `emulated_sbrk` and the marks as sequences of memory accesses, on the threads of `Conc` | with one lock: simulation by a serial execution of the calls of C64, whose grants are ordered by address; without: invariants on what each thread still has to do, over all schedules; counterexample schedules |
| C75 | `Esym`: the tool's output as C statements, read back as C reads literals and assembled to bytes; loading by symbol name; queries of `Static` | induction on the symbols with string offsets; encoding and decoding of table rows; composition with `metatab_static_found`; counterexamples |
| C76 | `Cconc`: the cache of `Cache` as accesses to single fields, on the threads of `Conc` | every access preserves an invariant whatever came between (all schedules); simulation of the field accesses by `Cache_model` and of locked schedules by serial ones; counterexample schedules, with an induction for the endless walk |
| C77 | `Infer`: the compile-time analysis giving types to allocation sites | environments as association lists; invariant over passes; rank induction for locals computed from one another; divisibility along every path; counterexample functions |
| C78 | `Infer`: repeating the pass until nothing changes | a pass is idempotent once its trace repeats; stability by rank; counting of determined locals; a cycle of length two |
| C79 | `Infer`: signatures and calls | signatures given by a small record and rendered; parsing inverts rendering; first match by induction on the list |
| C83 | `Cwrap`: the compiler wrapper's command line | the wrapper's classification, dictionaries and reassembly as functions on lists of strings; command lines specified by words of the compiler's manual; induction over the words; counterexample command lines, two of them for all values |
| C82 | `Trapw`: rewriting stores of pointers | an interpreter for a fragment of CIL with typed lvalues; the notifications due are specified by where a type holds pointers; simulation by induction on statements and on turns of loops, induction on types; counterexample functions |
| C81 | `Mona`: rewriting calls of alloca | an interpreter for a fragment of CIL, with the world outside given; simulation by induction on statements and on turns of loops; counterexample functions |
| C80 | `Sname`: symbols of types | injectivity of a concatenated grammar in continuation style, with tails that begin with two underscores; decimal numerals from the standard library; counterexample types |

All properties listed can be expressed; none is marked not applicable.

## What is modelled, and what is not

| source | modelled | left out |
|--------|----------|----------|
| `include/pageindex.h`, `src/pageindex.c` | record table, page index, create, extend, pre-extend, truncate, split, delete, range delete, lookups, common parent, mapping searches, stack growth, reindexing | tracing; locks (see C69's row); of `sanity_check_bigalloc` (129–166) the depth comparisons, the per-allocator minimum alignment and the recursion into children; the early program-break heuristic of lookups (1139–1169, see C71's row); big-allocation creation through `mmap` recursion |
| `src/allocators/mmap.c` | sequences, augment, replace, delete, `do_mmap`, `do_munmap`, `mprotect`, `mremap`, break notification, queries; the start-up scan of the listed mappings; the walk over the executable's program headers | reading and parsing `/proc/self/maps`, `LD_PRELOAD` re-execution, systrap hooks |
| `src/allocators/brk.c` | all | what is left to the C library: `__curbrk` |
| `include/generic_malloc_index.h`, `tools/stubgen.h` hooks | index, promotion to big allocations, queries, realloc | recently-freed list, arena creation heuristics, locks (see C70's row) |
| `tools/stubgen.h` wrappers | all, with the thread-local variables | the size argument's extraction from the signature; libcrunch's hooks, which are empty |
| `include/malloc-meta.h` | the metadata word, size macros | `PRECISE_REQUESTED_ALLOCSIZE` build |
| `include/liballocs_cil_inlines.h`, `src/cache.c` | the memory-range cache (default MRU configuration), alloca helpers | the alternative LINEAR and FIFO configurations |
| `include/liballocs.h`, `src/query.c` | subobject searches, descent, span walks, base queries | printing, `find_matching_subobject`'s cumulative-offset output |
| `src/walk.c`, `src/uniqtype-bfs.c` | all walks | |
| `src/uniqtype-util.c` | pointer, array, function, union creation and sharing; precise arrays | |
| `src/allocsites.c`, `include/allocsites.h` | ids, vectors | |
| `include/memtable.h`, `src/addrlist.c`, `include/metavec.h` | all | `memtable`'s mmap call; the shortcut vector is kept as the ranges written |
| `src/allocators/alloca.c` | indexing, frames, leaving, queries | the forest is abstracted to the frames' ranges |
| `src/allocators/stackframe.c`, `tools/frametypes2.cpp` | walk, table search, table generation | DWARF reading; sharing equal types; the unwinder is a list of frames |
| `src/allocators/static-symbol.c`, `tools/metavector.cpp` | search, answers, table generation | ELF and DWARF reading; field widths of the records, whose header is absent |
| `src/allocators/auxv.c`, `stack.c` | queries, division of the initial stack, stack growth | discovery of the vectors (librunt) |
| `src/allocators/packed-seq.c` | caching, queries, walks | the array-type fix-up; sixteen-bit records are given a four-byte stride by the code, which is not represented |
| `src/allocators/generic_small.c` | all of the index | assertions (compiled out) |
| `include/linear_malloc_index.h`, `allocsld/allocinstr.c`, `src/allocators/ld-so-malloc.c` | index and areas | |
| `allocsld/allocinstr.c` (57–240, 523–569), `allocsld/asmutil.h`, `allocsld/chain.c` (116–155, 222–233) | displacing instructions, trampolines, relocation, the debugger's hook, the interpreter's name | the instruction decoder (libsystrap), which is a parameter; protection of pages around the patches of `allocinstr.c`; finding the symbol tables |
| `src/lifetime_policies.c` | policies, reference counting, copies, frees | locks |
| `src/allocators/static-file.c`, `static-segment.c`, `static-section.c` | recording of loads and unloads, filling of holes, answers to queries | joining of mapping sequences when a hole is filled |
| `src/meta-dso.c`, `src/meta-dso-util.c`, names in `src/uniqtype-util.c`, naming in `tools/Makefile.meta` | names, search, loading, lookup by name, iteration | libcrunch's hooks; finding the tables in the dynamic section |
| `src/systrap.c`; `mmap` of `src/preload.c` | the replaced system calls, the choice of place, self-call detection | rewriting of instructions (libsystrap); the call numbers not replaced are one case; `mremap` of `preload.c` (disabled there) |
| `tools/objdumpmeta.awk`, the sorts of `tools/objdumpallocs` and `tools/gather-srcallocs.sh`, `tools/merge-allocs.sh`, `tools/allocsites.cpp:61-101` | the line automaton, sorting, merging, the table | lines are given already classified by the awk script's patterns; numbers are printed without padding as there; type names are resolved by an arbitrary function |
| `src/fake-libunwind.c`, `include/liballocs.h`'s `__liballocs_walk_stack` | getting the context, stepping, reading registers, the walk | names of functions, the assertion on the compiler's stack pointer |
| `include/liballocs.h:605-660`, `src/query.c:28-236` | the queries, with the `get_info` functions of mmap, brk, static-file, static-segment, static-section, stack, auxv and ld.so malloc | other allocators are arbitrary functions; inline caches, locks |
| `src/dlmalloc-ext.c:109-111, 150-302` | the wrappers, the metadata bits, the emulated break | dlmalloc itself, tracing, the mmap-based variant (its metadata functions are empty), most of `create_private_nommap_malloc_heap` |
| `src/rt-uniqtypes.c:60-217` | set-up of the built-in types | `update_rt_uniqtypes_obj`, which nothing calls; libdlbind |
| `src/init.c:44-140`, the initialisers in `src/allocators/*.c` | which initialiser calls which, the flags, the order of the work | what each piece of work does (other rows); the environment variables; `fake_dlsym` |
| `src/preload.c:333-347`, `403-443`; `src/ifunc.c:28-73` | the signal wrappers; `write_decint`; the test for the first place | `malloc_or_alloca_usable_size`; the ifunc itself |
| `src/query.c:66-80`, `146-159`, `237-267`; `include/generic_malloc_index.h:634-658`, `715-732` | the type setters over the modelled heap and memory | make_precise and the type constructors are arbitrary functions; the object cache; `ld-so-malloc`'s setter is an abort |
| the locking in `src/pageindex.c:18-32` and its uses; `include/pageindex.h:166-237` as run beside writers | a recursive lock; one step for each read or write of a record or of the page index, except that one call's stores to the page index are one step | weaker memory orders; creation of the table itself (`__pageindex_init`) |
| `include/generic_malloc_index.h:146-163`, `192-246`, `271-528`, `580-630` as run by several threads | one step for each read or write of the arena's fields, of its info and of a word of the bitmap | promotion; metadata words; the object cache; several arenas (they share nothing but the table, C69) |
| `src/pageindex.c:1131-1174` (lookups before system calls are trapped) | the backward search with its unsigned comparison, the test of the page's last byte, the notification, the second try | initialising the mmap allocator when the second record is unused |
| `BIG_LOCK`/`BIG_UNLOCK` in `src/pageindex.c`, `include/generic_malloc_index.h`, `src/allocators/generic_small.c` | order of acquisition in every function that locks, and in what it calls while holding a lock | everything else (arbitrary choice); aborting paths; fork |
| `src/err.c`, `debug_printf` in `src/liballocs_private.h:155-159` | opening, truncation, the fallback and its recursion, buffers written at exit | formatting; flushing before exit |
| `src/dlmalloc-ext.c:150-186, 276-302` under threads | each access to the break and to a word of the bitmap | the wrapped allocator; memory order weaker than sequential consistency |
| `tools/extrasyms.cpp:98-206`, `src/allocators/static-file.c:233-234`, `allocsld/allocinstr.c:204-240` | statements, string and symbol bytes, lookup by name, the walk | `get_extrasyms` (not in the repository), printing of numbers, backslashes in names |
| `include/liballocs_cil_inlines.h:250-446`, `src/cache.c` under threads | each access to a field of the cache | DEBUG sanity checks; memory order weaker than sequential consistency |
| `tools/lang/c/dumpallocs/dumpallocs.ml:70-701, 813-824`, `cilallocs.ml:378-380, 744-765` | size expressions, the flow-insensitive passes, signatures, the choice among signatures, what is recorded | CIL itself; attributes of types; `isStaticallyNullPtr`; anonymous failures for structs without a definition; the labels put on instructions; file output |
| `tools/lang/c/cilallocs/cilallocs.ml:239-244, 268-320, 352`, `src/uniqtype-util.c:33-49` | escaping, the names of base types (sizes of x86-64), of composite types, symbols; run-time names of arrays | attributes; negative bounds; `userTypeNameToBareName` and `dwarfidlFromSig`; truncation at 4095 bytes |
| `tools/lang/c/monalloca/monalloca.ml:79-242` | finding and making the counter, the four instructions put for a call, the zeroing on entry, the cleanup on leaving | gotos, switches, address-taken locals as variables; types; labels of the assembly; `longjmp` |
| `tools/lang/c/trapptrwrites/trapptrwrites.ml:40-131` | which stores are trapped, the calls put before them for pointers, fields and arrays, the temporaries | volatile accesses, gotos, switches; scalars are one word each |
| `tools/compilerwrapper.py:61-113, 226-286, 291-420, 563-612` | classification of arguments, options and items by phase, the command run with -c, -S or -E | environment variables, the subclass's own arguments, linking and compiling for a link |
| the rest of `src/preload.c` and of `src/init.c`; `src/util.c`; the build-time tools in `tools/` other than those named | | no model: DWARF processing |

Concurrency is modelled for the table of big allocations (C69) and for the heap index (C70).
Elsewhere each call is taken to run alone.

## External contracts

The submodules under `contrib/` are empty in the pinned checkout, so these are modelled from
their use:

* librunt: `bitmap.h` (a bitmap is a set of bit numbers with a length), `bsearch_leq_generic`
  (the last element not above the key), the rounding macros, `MINIMUM_USER_ADDRESS`
  (0x400000), discovery of the auxiliary vector;
* liballocstool: layout of `struct uniqtype` and the `UNIQTYPE_*` accessors, `stickyroot.hpp`,
  `struct frame_allocsite_entry`, `union sym_or_reloc_rec`;
* libmallochooks: the order in which hooks call `pre_alloc`, `post_successful_alloc` and so on;
* libdlbind: names bound are visible to later `dlsym(NULL, …)`;
* the C library: `qsort` sorts if the comparator is a linear order, `tsearch` finds what it was
  given if the comparator is a linear order, `malloc_usable_size`; libunwind.

Two facts could not be checked for want of those sources.  `metavector.cpp` numbers extra
symbols from 2 while `extrasyms.cpp`'s table starts at 1.  `configure` only allows 8, 16, 32
or 64 lifetime policies, while `malloc-meta.h` has room for four and `lifetime_policies.c`
does not type-check as written; the model follows the evident intention, with four.

`alloca`'s unindexing reads a total (`total_to_unindex`) that is set by the caller's frame; the
model takes it to be the counter that the inlined helpers keep.

## Trusted base

* Coq 8.16.1's kernel, including `vm_compute`, which is used for closed witnesses.
* The fidelity of the model to the cited source, and the external contracts above.
* `Print Assumptions` is run for every property theorem by the build, and answers
  "Closed under the global context" for each: no axioms are used, neither the standard
  library's nor any other.
* The compiled library as a whole contains the seven axioms of `Coq.ssr.ssrunder`
  (`Under_rel` and its relatives, loaded by `Zify`'s plugin files); no theorem depends on them.
* No axiom, parameter or section-less variable is declared.  No kernel check is switched off.
  There are no module types or functors.

## Testing the theorems

`seeded/LOG.jsonl` records the wrong programs tried.  Each is an edit to a definition of the
model, in a copy outside this directory, that makes some property false.  The entry says which
lemmas failed to compile and which theorems were tightened.

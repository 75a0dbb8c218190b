{"id": "C01", "title": "Address lookup finds the innermost enclosing big allocation", "statement": "After any sequence of accepted create / delete / extend / truncate / pre-extend / split notifications, looking up an address from the page index reports the innermost live big allocation whose range contains the address, and reports 'none' exactly when no live big allocation contains it.", "quantifier": "every finite history of big-allocation notifications with arbitrary addresses, sizes and nesting depth, and every address", "why_tests_cant": "the page index is maintained incrementally by each operation; a stale page entry only shows up for particular combinations of sharing of pages, nesting and order of deletion", "anchors": ["src/pageindex.c: memset_bigalloc, bigalloc_init, bigalloc_del, extend_bigalloc, find_deepest_bigalloc_recursive, find_deepest_bigalloc", "include/pageindex.h: __liballocs_get_bigalloc_containing"]}
{"id": "C02", "title": "Big allocations always form a containment forest", "statement": "At all times every live big allocation either has no parent or a live parent whose range contains it, sibling links are mutually consistent, every child list is finite and holds exactly the live allocations that name that parent, and a record is never handed out while in use.", "quantifier": "every finite history of accepted big-allocation notifications", "why_tests_cant": "pointer-linked structures break only under particular deletion orders; tests visit a few", "anchors": ["src/pageindex.c: find_free_bigalloc, add_child, unlink_child, bigalloc_init_nomemset, bigalloc_del, sanity_check_bigalloc"]}
{"id": "C03", "title": "Deleting a big allocation removes exactly it and what it contains", "statement": "Deleting a big allocation makes it and all its descendants dead, leaves every other big allocation's range, parent and allocator unchanged, and afterwards every address it used to cover resolves to what resolves for its parent.", "quantifier": "every forest shape, every victim, every address", "why_tests_cant": "quantifies over tree shapes and over everything that must not change", "anchors": ["src/pageindex.c: bigalloc_del, __liballocs_delete_bigalloc_at"]}
{"id": "C04", "title": "Creating a big allocation never straddles an existing one", "statement": "A creation request is accepted only if it lies inside one chosen parent, or is top-level and page-aligned; an accepted creation changes no other allocation's range, and the new allocation is found by lookup at its start address.", "quantifier": "every forest and every requested range, parent and allocator", "why_tests_cant": "needs all geometric relations between the request and the existing ranges", "anchors": ["src/pageindex.c: __liballocs_new_bigalloc, bigalloc_new, bigalloc_init"]}
{"id": "C05", "title": "Next-mapping and previous-mapping searches are exact", "statement": "Searching for the mapping at or above an address returns the lowest top-level mapping ending above it, and searching below an address returns the highest top-level mapping lying wholly below it; 'none' is answered only when there is no such mapping.", "quantifier": "every set of top-level mappings and every address", "why_tests_cant": "boundary case analysis over arbitrary sorted lists", "anchors": ["src/pageindex.c: __liballocs_find_mapping_at_or_above, __liballocs_find_mapping_below, find_toplevel_lowest_ge, find_toplevel_highest_lt"]}
{"id": "C06", "title": "The common enclosing allocation of two allocations is their lowest common ancestor", "statement": "Asking for the common parent of two addresses returns the deepest big allocation that covers both, and 'none' only if no allocation does.", "quantifier": "every forest and every pair of nodes, at any depths", "why_tests_cant": "depth differences are unbounded; tests use shallow trees", "anchors": ["src/pageindex.c: __liballocs_get_common_parent_bigalloc, get_common_parent_bigalloc_recursive"]}
{"id": "C07", "title": "Deleting everything that overlaps a range leaves nothing overlapping it", "statement": "After asking for everything overlapping a range to be deleted, every top-level mapping overlapping the range is gone together with everything inside it, each one's private data freed once, and every other allocation is untouched.", "quantifier": "every forest and range", "why_tests_cant": "iterates a list it is modifying; correctness depends on every list shape", "anchors": ["src/pageindex.c: __liballocs_delete_all_bigallocs_overlapping_range"]}
{"id": "C08", "title": "Splitting a mapping partitions it", "statement": "Splitting a big allocation at a page boundary yields two that exactly partition the old range, distributes each child to the half that contains it, and preserves every address lookup outside the two halves.", "quantifier": "every forest, every node and every page boundary strictly inside it", "why_tests_cant": "children may lie on either side or across the boundary, in any list order", "anchors": ["src/pageindex.c: split_bigalloc_at_page_boundary, __liballocs_split_bigalloc_at_page_boundary"]}
{"id": "C09", "title": "Memory-mapping records mirror the address space", "statement": "After any sequence of successful map and unmap notifications, the recorded mapping of each page is the most recent mapping made over that page, or 'none' if it has since been unmapped.", "quantifier": "every finite history of map/unmap notifications with arbitrary page ranges, permissions and files; every page", "why_tests_cant": "depends on arbitrary overlap patterns between new and existing ranges over unbounded histories", "anchors": ["src/allocators/mmap.c: do_mmap, do_munmap, augment_sequence, delete_mapping_sequence_span"]}
{"id": "C10", "title": "Unmapping a range removes exactly that range", "statement": "An unmap notification terminates without tripping an internal check, removes every recorded mapping byte in the range, and keeps every recorded byte outside the range with its attributes.", "quantifier": "every recorded mapping sequence and every page-aligned range", "why_tests_cant": "each of prefix, suffix, hole, whole and multi-sequence unmaps combine arbitrarily", "anchors": ["src/allocators/mmap.c: do_munmap, delete_mapping_sequence_span, delete_mapping_sequence_prefix, delete_mapping_sequence_suffix"]}
{"id": "C11", "title": "Mapping sequences stay well formed and bounded", "statement": "Each recorded mapping sequence is non-empty, contiguous in increasing address order, exactly fills its enclosing big allocation, and never exceeds its fixed capacity.", "quantifier": "every history of mapping notifications", "why_tests_cant": "capacity overflow needs long histories of particular shapes", "anchors": ["src/allocators/mmap.c: check_mapping_sequence_sanity, augment_sequence, copy_all_left_from_by, copy_all_right_from_by", "src/liballocs_private.h: struct mapping_sequence"]}
{"id": "C12", "title": "Looking up a mapping entry is exact", "statement": "The mapping entry reported for an address inside a mapping sequence is the unique entry containing that address.", "quantifier": "every well-formed mapping sequence and every address", "why_tests_cant": "universally quantified over sequences", "anchors": ["src/allocators/mmap.c: __mmap_allocator_find_entry", "src/query.c: __liballocs_get_memory_mapping"]}
{"id": "C13", "title": "The program break stays inside its mapping", "statement": "After any sequence of program-break moves, the recorded heap segment ends exactly at the current break and lies within the recorded memory mapping, which ends at the break rounded up to a page.", "quantifier": "every initial break and every sequence of break moves, up and down", "why_tests_cant": "the two records are updated in a direction-dependent order; unbounded histories", "anchors": ["src/allocators/brk.c: update_brk, __brk_allocator_notify_brk", "src/allocators/mmap.c: __mmap_allocator_notify_brk"]}
{"id": "C14", "title": "Heap lookup returns the live chunk that contains an address", "statement": "After any sequence of index insertions and deletions for heap chunks, looking up an address inside a live chunk yields that chunk's start, and the reported size is the size usable by the caller; an address in no live chunk is reported as unindexed.", "quantifier": "every history of insert/delete of pairwise disjoint aligned chunks of any size, every query address", "why_tests_cant": "the result depends on every other live chunk and on histories of deletes", "anchors": ["include/generic_malloc_index.h: __generic_malloc_index_insert, __generic_malloc_index_delete, lookup_object_info_via_bitmap, lookup_object_info, __generic_malloc_get_info"]}
{"id": "C15", "title": "Heap metadata never overlaps caller bytes", "statement": "For any requested size the enlarged chunk has room for the per-chunk metadata after the caller's bytes, metadata is suitably aligned, and metadata of distinct live chunks never overlaps caller bytes of any live chunk.", "quantifier": "every requested size and every usable size the underlying allocator may return", "why_tests_cant": "arithmetic over all 64-bit sizes", "anchors": ["include/malloc-meta.h: CHUNK_SIZE_WITH_TRAILER, caller_usable_size_for_chunk_and_usable_size, insert_for_chunk_and_usable_size", "include/generic_malloc_index.h"]}
{"id": "C16", "title": "Per-chunk metadata round-trips", "statement": "Storing an allocation site into a chunk's metadata and reading it back yields the same site; storing a type yields the same type and site id; storing one field never disturbs another field.", "quantifier": "every 47-bit site address, every 8-byte-aligned 47-bit type address, every site id, every lifetime-policy set", "why_tests_cant": "bit-field packing over all values", "anchors": ["include/malloc-meta.h: struct insert, INSERT_IS_WITH_TYPE, UNIQTYPE_SHIFT_FOR_INSERT, UNIQTYPE_UNSHIFT_FROM_INSERT, INSERT_DESCRIBES_OBJECT"]}
{"id": "C17", "title": "Resolving an allocation site to a type is idempotent and stable", "statement": "The first query on a chunk converts the recorded site to a type; every later query returns that same type and site, until the type is explicitly changed.", "quantifier": "every chunk, every site table, every number and interleaving of queries", "why_tests_cant": "the query mutates the metadata it reads", "anchors": ["include/generic_malloc_index.h: extract_and_output_alloc_site_and_type, __generic_malloc_set_type"]}
{"id": "C18", "title": "The object cache is always structurally sound", "statement": "After any sequence of cache fills, hits and invalidations the recency list is a permutation of exactly the valid entries, linked consistently in both directions, and never exceeds the capacity.", "quantifier": "every finite sequence of cache operations", "why_tests_cant": "linked-list corruption needs particular eviction/invalidations orders", "anchors": ["include/liballocs_cil_inlines.h: __liballocs_cache_unlink, __liballocs_cache_push_head_mru, __liballocs_cache_bump_mru, __liballocs_cache_with_type, __liballocs_check_cache_sanity", "src/cache.c: __liballocs_uncache_all"]}
{"id": "C19", "title": "A cache hit is never stale", "statement": "A cache lookup only ever returns a record that some earlier fill stored, whose range contains the queried address, and that has not been invalidated since by an invalidation whose range covers its base.", "quantifier": "every finite sequence of fills, lookups and invalidations, every queried address", "why_tests_cant": "staleness depends on whole histories", "anchors": ["include/liballocs_cil_inlines.h: __liballocs_memrange_cache_lookup, __liballocs_memrange_cache_lookup_notype, __liballocs_cache_with_type", "src/cache.c: __liballocs_uncache_all"]}
{"id": "C20", "title": "The cache evicts the least recently used record only when full", "statement": "A fill evicts a record only if the cache is full, and then it evicts exactly the least recently used one.", "quantifier": "every finite sequence of cache operations", "why_tests_cant": "recency is a property of the history", "anchors": ["include/liballocs_cil_inlines.h: __liballocs_cache_with_type, __liballocs_cache_bump_victim"]}
{"id": "C21", "title": "Base queries through the cache agree with uncached queries", "statement": "If every freed or reallocated object is invalidated when freed, then asking for the base of an address inside a live object gives the same answer with a warm cache as with a cold one.", "quantifier": "every history of object creation, queries and frees", "why_tests_cant": "a cache coherence property over all interleavings of queries and frees", "anchors": ["src/query.c: __liballocs_get_base", "src/cache.c"]}
{"id": "C22", "title": "Subobject search is sound", "statement": "If the search for a subobject of a given type at a given offset succeeds, there is a chain of containment from the outer type to a subobject of that type lying at exactly that offset.", "quantifier": "every type tree of any depth and width, every offset", "why_tests_cant": "bisection over arbitrary member tables, recursion over arbitrary nesting", "anchors": ["include/liballocs.h: __liballocs_first_subobject_spanning, __liballocs_find_matching_subobject"]}
{"id": "C23", "title": "Subobject search is complete", "statement": "If members are sorted by offset and non-overlapping except for union members sharing an offset, the search finds a subobject of the requested type at the requested offset whenever one exists.", "quantifier": "every well-formed type tree, every offset and target type", "why_tests_cant": "completeness quantifies over all witnesses", "anchors": ["include/liballocs.h: __liballocs_find_matching_subobject"]}
{"id": "C24", "title": "The innermost type covers the queried address", "statement": "Repeatedly descending to the subobject spanning an offset terminates at a type whose extent contains the offset.", "quantifier": "every type tree and every offset inside it", "why_tests_cant": "padding and unions at arbitrary depth", "anchors": ["src/query.c: __liballocs_get_inner_type", "include/liballocs.h: __liballocs_first_subobject_spanning"]}
{"id": "C25", "title": "Walking the subobjects that span an offset visits each exactly once, outermost first", "statement": "The spanning walk calls back for every subobject that spans the offset, exactly once each, in order of increasing depth along each path, with the correct start offset and depth, and stops at the first non-zero callback result.", "quantifier": "every type tree, offset and callback", "why_tests_cant": "arbitrary nesting of arrays, structs and unions, arbitrary callbacks", "anchors": ["include/liballocs.h: __liballocs_walk_subobjects_spanning_rec"]}
{"id": "C26", "title": "Depth-first allocation walk is a pre-order traversal with skip and stop", "statement": "The depth-first walk visits an object before its contents and contents in address order; a callback result of -1 prunes exactly that subtree, any other non-zero result stops the walk and is returned.", "quantifier": "every allocation tree and callback behaviour", "why_tests_cant": "arbitrary trees and callback histories", "anchors": ["src/walk.c: __liballocs_walk_allocations, walk_one_df_cb, __liballocs_walk_allocations_df"]}
{"id": "C27", "title": "Object-graph walk reaches every reachable object exactly once", "statement": "The breadth-first walk from an object terminates on every finite object graph, blackens exactly the objects reachable through pointer fields, each exactly once, in order of non-decreasing distance.", "quantifier": "every finite object graph including cycles and sharing", "why_tests_cant": "arbitrary graphs", "anchors": ["src/uniqtype-bfs.c: __uniqtype_walk_bfs_from_object, process_bfs_queue_and_maps, build_adjacency_list_recursive", "include/uniqtype-bfs.h"]}
{"id": "C28", "title": "Run-time-created types are unique per description", "statement": "Asking twice for the array (or union, or pointer) type of the same constituents returns the same type; asking for different constituents returns different types; the created type's size matches its constituents.", "quantifier": "every sequence of type-creation requests", "why_tests_cant": "uniqueness is a property of the whole request history", "anchors": ["src/uniqtype-util.c: get_or_create_array_type, __liballocs_get_or_create_flexible_array_type, __liballocs_get_or_create_union_type"]}
{"id": "C29", "title": "Allocation-site ids are a bijection", "statement": "Every allocation site of every loaded object receives an id, different sites receive different ids, and mapping an id back yields the original site address.", "quantifier": "every sequence of loaded objects and every site", "why_tests_cant": "ids are assigned cumulatively; depends on the whole load history", "anchors": ["src/allocsites.c: init_allocsites_info, __liballocs_allocsite_id, __liballocs_allocsite_entry_by_id, __liballocs_allocsite_by_id, __liballocs_find_allocsite_entry_at"]}
{"id": "C30", "title": "Memory-table addressing is a faithful bucket map", "statement": "Two addresses share a table entry exactly when they lie in the same bucket; converting an address to its entry and back yields the bucket base, and base plus offset recovers the address.", "quantifier": "every entry size, bucket size and address range, every address", "why_tests_cant": "arithmetic over all parameters", "anchors": ["include/memtable.h: memtable_index, memtable_addr, memtable_entry_range_base, memtable_addr_range_base, memtable_addr_range_offset, memtable_mapping_size"]}
{"id": "C31", "title": "Stack-allocated chunks are indexed and dropped exactly with their frame", "statement": "After any sequence of alloca calls in nested frames, each live alloca chunk is found by lookup, its metadata fits beyond the caller's bytes, and leaving a frame un-indexes exactly the chunks that frame allocated.", "quantifier": "every nesting of frames and every sequence of alloca sizes", "why_tests_cant": "frame exit works by byte counting; histories are unbounded", "anchors": ["src/allocators/alloca.c: __alloca_allocator_notify, __liballocs_unindex_stack_objects_counted_by, realloc_bitmap_prepend, ensure_arena_covers_addr", "include/liballocs_cil_inlines.h: __liballocs_alloca_size, __liballocs_notify_and_adjust_alloca"]}
{"id": "C32", "title": "Small-object index finds the object covering an address", "statement": "After any sequence of small-object insertions and removals in a pool, looking up an address returns the object covering it, and 'none' if no object covers it.", "quantifier": "every history of disjoint insertions and removals, every address", "why_tests_cant": "objects span buckets, share buckets and are removed in any order", "anchors": ["src/allocators/generic_small.c: index_small_alloc_internal, lookup_small_alloc, unindex_small_alloc_internal, get_start_from_continuation, remove_one_bucket_entry"]}
{"id": "C33", "title": "Packed-sequence queries agree with the sequence", "statement": "Querying an address inside a packed sequence reports the element containing it, no matter how much of the sequence has been cached by earlier queries; walking the sequence visits each element once, in order.", "quantifier": "every sequence content, every query history and every address", "why_tests_cant": "laziness makes answers depend on the query history", "anchors": ["src/allocators/packed-seq.c: ensure_cached_up_to, get_info, __packed_seq_allocator walk_allocations, enumerate_string8_nulterm"]}
{"id": "C34", "title": "Dynamic-linker heap lookup is exact", "statement": "Looking up an address among the recorded dynamic-linker heap chunks returns the record containing it, and 'none' if no record contains it.", "quantifier": "every set of disjoint records and every address", "why_tests_cant": "binary search over arbitrary arrays, comparator over all 64-bit values", "anchors": ["include/linear_malloc_index.h: compare_linear_mallocs, find_linear_malloc_rec, linear_malloc_usable_size", "src/allocators/ld-so-malloc.c"]}
{"id": "C35", "title": "Static-object lookup is exact", "statement": "For a sorted table of static objects, querying an address reports the object whose range contains it, with its true start and size, and an error if no object contains it.", "quantifier": "every sorted table of symbols and relocation-described objects, every address", "why_tests_cant": "boundary conditions for all tables", "anchors": ["src/allocators/static-symbol.c: do_lookup, __static_symbol_allocator_get_info", "include/allocmeta.h: vaddr_from_rec"]}
{"id": "C36", "title": "Initial-stack lookup is exact", "statement": "Every address within argument vector, environment vector, auxiliary vector, string area or argument count is reported as belonging to that region with its true start and size; addresses outside are reported as unknown.", "quantifier": "every process image layout and every address", "why_tests_cant": "boundary conditions for all layouts", "anchors": ["src/allocators/auxv.c: get_info, __auxv_allocator_notify_init_stack_mapping_sequence"]}
{"id": "C37", "title": "Stack-frame lookup identifies the frame containing an address", "statement": "Walking the stack for an address reports the frame whose described extent contains it, and never reports a frame for an address outside every frame's extent.", "quantifier": "every stack of frames with arbitrary sizes, every address", "why_tests_cant": "all stack shapes", "anchors": ["src/allocators/stackframe.c: get_info, pc_to_frame_uniqtype"]}
{"id": "C38", "title": "An object is freed exactly when its last lifetime policy is detached", "statement": "With several lifetime policies attached to an object, the object is released at the first detach that leaves none attached, never earlier and never twice; policies registered beyond the supported number are refused.", "quantifier": "every sequence of register, attach and detach operations", "why_tests_cant": "all interleavings of attach/detach by independent policies", "anchors": ["src/lifetime_policies.c: __liballocs_register_gc_policy, __liballocs_attach_lifetime_policy, __liballocs_detach_lifetime_policy, __notify_copy"]}
{"id": "C39", "title": "Metadata vectors agree with the objects they describe", "statement": "Rounding and binary search over a metadata vector return the record covering an address, and lookups for addresses not covered fail.", "quantifier": "every sorted metadata vector, every address", "why_tests_cant": "all tables and alignments", "anchors": ["include/metavec.h: DEFINE_META_VEC_FUNCS, round_addr_down, round_addr_up", "include/vec.h"]}
{"id": "C40", "title": "Address lists remember everything added", "statement": "After any sequence of additions an address list contains exactly the added addresses, membership reports the one-based position of the first addition, and no write falls outside the allocated storage.", "quantifier": "every sequence of additions", "why_tests_cant": "capacity growth over unbounded histories", "anchors": ["src/addrlist.c: __liballocs_addrlist_contains, __liballocs_addrlist_add"]}
{"id": "C41", "title": "Stack auto-growth claims exactly the plausible region", "statement": "An unindexed address is adopted into the stack exactly when it lies below the recorded stack and within the configured growth limit, after which lookups at that address succeed.", "quantifier": "every stack position, limit and faulting address", "why_tests_cant": "signed/unsigned arithmetic over all addresses", "anchors": ["src/allocators/stack.c: __stack_allocator_notify_unindexed_address", "src/pageindex.c: __liballocs_pre_extend_bigalloc_recursive"]}
{"id": "C42", "title": "Resizing a big allocation in place changes only its range", "statement": "Extending an allocation at its end or its beginning, or truncating it at either end, to a range that fits around its children and inside its parent, changes exactly that allocation's range: no other allocation's attributes change and every later lookup agrees with the new ranges.", "quantifier": "every forest, every allocation and every admissible new boundary, page aligned or not", "why_tests_cant": "partial pages shared between siblings make the page index updates depend on the residues of four addresses", "anchors": ["src/pageindex.c: __liballocs_extend_bigalloc, __liballocs_pre_extend_bigalloc, __liballocs_truncate_bigalloc_at_end, __liballocs_truncate_bigalloc_at_beginning, __adjust_bigalloc_end"]}
{"id": "C43", "title": "Reference walk reports exactly the outermost references", "statement": "Walking references under an object calls the client once for each object the interpreter recognises as a reference and which is not inside another reference or inside an object that cannot contain references, in pre-order, and stops at the first non-zero client result.", "quantifier": "every tree of allocations, every interpreter and every client behaviour", "why_tests_cant": "interplay of the client's result with the walk's own skip and stop codes, at any depth", "anchors": ["src/walk.c: __liballocs_walk_refs_cb, walk_one_df_cb"]}
{"id": "C44", "title": "Remapping moves and resizes records as the kernel does", "statement": "After a successful mremap the mapping records describe the new placement: growing in place adds exactly the new pages with the old pages' attributes, shrinking removes exactly the dropped pages, moving makes the same attributes appear at the new place and (unless told to keep them) disappear from the old one, and all other mappings stay as recorded.", "quantifier": "every reachable set of mappings, every old range, every new address and size", "why_tests_cant": "depends on how the old range falls into recorded entries, and on page rounding of both sizes", "anchors": ["src/allocators/mmap.c: __mmap_allocator_notify_mremap"]}
{"id": "C45", "title": "Reference counting keeps exact counts", "statement": "A reference-counting policy attached to objects always counts exactly the pointers in use (in the program's own slots and in slots of unreleased objects) that refer to the object: a referenced object keeps the policy, an object losing its last reference loses it and, if already freed by hand, is released.", "quantifier": "every history of allocation, attachment, detachment, free and pointer writes, every pointer graph including shared and nested structure", "why_tests_cant": "cascading releases within releases and dropping before counting make counts depend on the whole pointer graph", "anchors": ["src/lifetime_policies.c: __notify_ptr_write, __liballocs_attach_lifetime_policy, __liballocs_detach_lifetime_policy, __notify_free", "tools/stubgen.h: pre_nonnull_free"]}
{"id": "C46", "title": "Copies and frees notify exactly the pointers affected", "statement": "Copying memory into objects notifies a pointer write for exactly the pointer slots wholly inside the copied range, once each, with the value read from the corresponding source address; freeing an object notifies a null write for exactly its pointer slots.", "quantifier": "every type, every object layout, every copied length", "why_tests_cant": "nested arrays and structures, prefixes ending inside members, wrapping unsigned arithmetic", "anchors": ["src/lifetime_policies.c: need_copy_notification, notify_copy_for_type, __notify_copy, __notify_free"]}
{"id": "C47", "title": "Generated frame descriptions place every local correctly", "statement": "For every program counter in a range where some local is held in the frame, the generated table yields a description whose members are exactly the locals held there, each at its actual place, with all of them inside the described extent; program counters in no such range yield none.", "quantifier": "every set of functions, ranges of program counters and locals with any offsets and sizes, every program counter", "why_tests_cant": "sorting, merging and offset arithmetic over arbitrary debugging information", "anchors": ["tools/frametypes2.cpp: get_frame_offset, write_traditional_output", "src/allocators/stackframe.c: pc_to_frame_uniqtype, init_frames_info"]}
{"id": "C48", "title": "Generated tables describe every static and nothing overlapping", "statement": "The table generated for a segment is sorted and its objects never overlap; every described static in the segment, and every relocation target that is in no static, is found through it, with true extent.", "quantifier": "every set of statics and relocation targets, every segment, every address", "why_tests_cant": "insertion order, shared addresses and inferred extents over arbitrary binaries", "anchors": ["tools/metavector.cpp: generate_recs, add_sane_reloc_intervals, output_one_segment_metavec", "src/allocators/static-symbol.c: do_lookup"]}
{"id": "C49", "title": "The dynamic linker's heap area is recorded once and can be described", "statement": "However many chunks the dynamic linker allocates from a mapping, one area is recorded for them, containing them all, inside the mapping and apart from anything else in it; asking about the area gives its start and size.", "quantifier": "every mapping, every sequence of chunk addresses in it", "why_tests_cant": "depends on what else shares the mapping and on the order of chunks", "anchors": ["src/allocators/ld-so-malloc.c: ensure_bigalloc_for_userptr, brk_get_info"]}
{"id": "C50", "title": "Loading a file records it, its segments and its sections; unloading removes exactly those", "statement": "After a file is loaded, each of its segments and non-empty sections is recorded with its extent, nested in the file's record inside its mapping, and nothing else changes; any address of a loaded file is attributed to its section, failing that its segment, failing that the file; unloading removes the unloaded file's records and no others.", "quantifier": "every history of loads and unloads and other operations between them, every file layout, every address", "why_tests_cant": "depends on what else is mapped, in which order files come and go, and on arbitrary segment and section tables", "anchors": ["src/allocators/static-file.c: __static_file_allocator_notify_load, __static_file_allocator_notify_unload, plug_hole_or_abort", "src/allocators/static-segment.c: __static_segment_allocator_notify_define_segment", "src/allocators/static-section.c: __static_section_allocator_ensure_big"]}
{"id": "C51", "title": "Start-up records exactly the mappings that exist", "statement": "When the library starts, the mappings listed for the process become known in addition to those known already: afterwards a query about any address answers what was known before or what is listed for it, with the listed protection, sharing and file; allocations other than mappings are untouched, save that the initial stack's are added; and later mapping calls go on from there.", "quantifier": "every list of mappings in address order, every state of the records before, every address", "why_tests_cant": "depends on how arbitrary listed mappings abut each other and those already recorded", "anchors": ["src/allocators/mmap.c: add_missing_mappings_from_proc, add_missing_cb, extend_current, add_mapping_sequence_bigalloc_if_absent, mapping_sequence_prefix, mapping_sequence_suffix"]}
{"id": "C52", "title": "The initial stack is divided at the argument count", "statement": "After start-up, every address of the initial stack's mapping below the argument count is attributed to the stack, whose contents are the stack frames' business, and every address above to the auxiliary vector.", "quantifier": "every list of mappings with an initial stack, every address in its mapping, wherever in it the argument count is", "why_tests_cant": "depends on kernel layout, which varies from run to run", "anchors": ["src/allocators/auxv.c: __auxv_allocator_notify_init_stack_mapping_sequence", "src/allocators/stack.c: __stack_allocator_notify_init_stack_region"]}
{"id": "C53", "title": "The executable's extent is found and only its holes are filled", "statement": "At start-up the executable's end is found to be the first page above all its segments, its data segment to be the one ending there, and inaccessible memory is mapped at exactly the pages between its segments that belong to none; no page of a segment is mapped over.", "quantifier": "every load address and every list of program headers", "why_tests_cant": "one executable has one layout; the walk must be right for every layout linkers produce", "anchors": ["src/allocators/mmap.c: __mmap_allocator_init"]}
{"id": "C54", "title": "Allocations are attributed to the outermost allocation function in progress", "statement": "Each heap chunk, each resized chunk and each small object is recorded with the site of the outermost of the program's allocation functions in progress, or its own caller if there is none, and the recordings come in the order of the allocations; once the functions have returned nothing carries over to later allocations.", "quantifier": "every sequence and nesting of allocations, allocation-function calls, frees and non-local jumps in a thread", "why_tests_cant": "depends on arbitrary nesting of wrapped functions and on how each is left", "anchors": ["tools/stubgen.h: make_caller_wrapper, make_free_wrapper, make_suballoc_wrapper, make_subfree_wrapper, post_successful_alloc, post_nonnull_nonzero_realloc", "src/allocsites.c: __current_allocsite, __current_allocfn, __current_allocsz"]}
{"id": "C55", "title": "System calls keep their meaning, and the records follow them", "statement": "A program's memory-mapping system calls reach the kernel as made, the program receives the kernel's answer, and after any history of them asking about an address gives the protection, flags, file and origin that the address has in the kernel's view, or says that it is not mapped. Memory the library maps for itself is kept in places of its own that do not overlap.", "quantifier": "every history of system calls with every answer of the kernel, every address; every sequence of the library's own mappings", "why_tests_cant": "depends on which calls are interposed, on the kernel's choices, and on arbitrary histories", "anchors": ["src/systrap.c: mmap_replacement, munmap_replacement, mremap_replacement, brk_replacement, open_replacement, local_liballocs_nudge_mmap, __liballocs_systrap_init", "src/preload.c: mmap", "src/allocators/mmap.c: filename_for_fd, __mmap_allocator_notify_mmap"]}
{"id": "C56", "title": "The metadata used for a loaded file is the one made for it", "statement": "For each loaded file the library looks for metadata under the names under which the tools put it: by build id first, then by path. It uses the first that can be read and is not older than the file, and none otherwise. Different files have different names. No file descriptor stays open. A reference to the metadata is held from loading to unloading.", "quantifier": "every metadata directory, file name, build id and state of the file system", "why_tests_cant": "depends on arbitrary names, lengths and file-system contents, and on what else is loaded", "anchors": ["src/meta-dso.c: meta_libfile_name_by_path, meta_libfile_name_by_build_id, find_and_open_meta_libfile", "src/meta-dso-util.c: load_and_init_all_metadata_for_one_object", "src/allocators/static-file.c: load_metadata, __static_file_allocator_notify_unload", "tools/Makefile.meta: link_under_build_id"]}
{"id": "C57", "title": "Types are found by their symbols and give back their names", "statement": "Looking a type up by the symbol the tools generate for it finds that type. The name reported for a type is the name in its symbol, with or without a code, and a symbol can be read in one way only.", "quantifier": "every type name, with every code of eight hexadecimal digits or none", "why_tests_cant": "there are unboundedly many names, and the code is a hash", "anchors": ["src/meta-dso-util.c: __liballocs_typestr_to_uniqtype", "src/uniqtype-util.c: __liballocs_uniqtype_symbol_name, __liballocs_uniqtype_name"]}
{"id": "C58", "title": "Iterating over a library's types visits each once, in order, until told to stop", "statement": "The callback is called exactly for the types that the library defines, in the order of its symbols, and no more after it first answers other than zero; that answer is returned.", "quantifier": "every symbol table, string table and callback", "why_tests_cant": "depends on arbitrary tables, and on names that share storage", "anchors": ["src/meta-dso-util.c: __liballocs_iterate_types"]}
{"id": "C59", "title": "Redirecting the dynamic linker's allocation functions keeps them working", "statement": "When the loader redirects an allocation function of the dynamic linker, every call to it reaches the replacement; the replacement can still call the original, which then does what it did before; no other code or data changes, however many functions are redirected.", "quantifier": "every memory, every list of functions, every position of functions, replacements and buffer, every sequence of displaced instructions", "why_tests_cant": "depends on the instructions of an arbitrary dynamic linker build and on where things are loaded", "anchors": ["allocsld/allocinstr.c: prologue_get_first_non_displaced, write_monopoline_and_detour, instr_cb", "allocsld/asmutil.h: apply_one_reloc, read_one_relocated_field, memcpy_and_relocate"]}
{"id": "C60", "title": "The loader stands in for the real one without further change to the program", "statement": "A program started through the loader sees the real interpreter's name where its own name for its interpreter was, or is not started; the hook called at each load becomes the loader's own; nothing else of the program or of the dynamic linker changes.", "quantifier": "every program header table, every path, every address of the hook", "why_tests_cant": "depends on arbitrary executables and load addresses", "anchors": ["allocsld/chain.c: fix_link_map_paths, chain_dl_debug_state_function"]}
{"id": "C61", "title": "Allocation sites in the code get the types of the sources", "statement": "In the metadata generated for a program, each call in the code that is on source lines with an allocation site of known type has one entry, under its return address, with the type of the first such site; no other address has one, and the table is in order. At run time, whatever else has been loaded and unloaded, asking about such a return address gives that type.", "quantifier": "every disassembly with source lines, every list of source-level sites, every load address and history of loading", "why_tests_cant": "depends on arbitrary code, file names and line numbers, on several sorts that must agree, and on source text that can look like anything", "anchors": ["tools/objdumpmeta.awk", "tools/objdumpallocs", "tools/gather-srcallocs.sh", "tools/merge-allocs.sh", "tools/allocsites.cpp: main", "src/allocsites.c: __liballocs_find_allocsite_entry_at", "include/generic_malloc_index.h: lookup by site"]}
{"id": "C62", "title": "Walking the stack visits every frame, and always ends", "statement": "Walking the stack of code that keeps frame pointers calls the callback once for each active frame, innermost first, with its address, stack pointer and base pointer, until the callback answers other than zero; that answer is returned. Addresses of locals are attributed to their frames through the same walk. Whatever is on the stack, the walk goes upward only and ends.", "quantifier": "every stack, of any depth; every contents of memory; every callback", "why_tests_cant": "depends on arbitrary depths, frame sizes and leftover values in registers and on the stack", "anchors": ["include/liballocs.h: __liballocs_walk_stack", "src/fake-libunwind.c: unw_getcontext, unw_step, unw_get_reg, SANE_BP_OR_NULL", "src/allocators/stackframe.c: get_info"]}
{"id": "C63", "title": "Queries about any address agree with each other and with the records", "statement": "Asking about an address for its allocator, base, size, type or site puts the question to the allocator responsible for the innermost allocation there, and the answers are those of one account of the object. Where the innermost allocation is itself the object (a mapping, the heap segment, a file, segment or section) the base and size are its own and enclose the address. An address in no allocation is first given to the stacks and the heap to claim by growth; otherwise every query answers that nothing is there and nothing changes.", "quantifier": "every history of the index, every address, every set of results asked for, every behaviour of the other allocators", "why_tests_cant": "depends on the whole history of the index, on which results are asked for and on what each allocator writes when it fails", "anchors": ["include/liballocs.h: __liballocs_get_alloc_info", "src/query.c: __liballocs_get_base, __liballocs_get_type, __liballocs_get_alloc_size, __liballocs_get_alloc_site, __liballocs_get_leaf_allocator, __liballocs_get_inner_type, __liballocs_get_specific_by_allocator", "src/pageindex.c: __liballocs_notify_unindexed_address", "src/allocators/*.c: get_info"]}
{"id": "C64", "title": "The library's own heap stays within its area and its index marks exactly its live chunks", "statement": "Requests to move the emulated break are granted exactly when the new break lies within the heap's area, and change nothing otherwise. After any sequence of allocations, frees and reallocations the heap's bitmap has a bit set exactly at the beginning of each live chunk; each call returns what the underlying allocator returned, and writes to the bitmap stay inside the memory allocated for it.", "quantifier": "every sequence of calls and increments, every answer of the underlying allocator allowed by malloc's rules, every state of the index that holds the heap", "why_tests_cant": "depends on the whole history of calls and on the underlying allocator's answers, including its failures, which tests cannot provoke at will", "anchors": ["src/dlmalloc-ext.c: emulated_sbrk, set_metadata, clear_metadata, __wrap_dlmalloc, __wrap_dlcalloc, __wrap_dlfree, __wrap_dlrealloc, __wrap_dlmemalign, __wrap_dlposix_memalign, __wrap_dlmalloc_usable_size, create_private_nommap_malloc_heap"]}
{"id": "C65", "title": "The built-in types exist in every program and are the program's own where it has them", "statement": "Once set up, the library has a type for void, the byte, signed and unsigned characters, 64-bit integers, character pointers, the auxiliary-vector entry and the unbounded character array, whatever the program defines. Each is the type the program itself defines by that name, or else a new one of the size, kind and referents its name says, found by that name from then on. The program's own types are left as they are, except that missing signed or unsigned counterparts are filled in.", "quantifier": "every list of types a program may define, under any names", "why_tests_cant": "depends on which of ten names the loaded objects define, in any combination and order", "anchors": ["src/rt-uniqtypes.c: init_rt_uniqtypes_obj", "src/uniqtype-util.c: __liballocs_get_or_create_address_type"]}
{"id": "C66", "title": "Start-up does each piece of work once, in the right order, and ends", "statement": "However the library's initialisers are entered, as constructors in any order or from within the work they do themselves, no piece of start-up work is done twice, start-up ends, and whatever was asked for is initialised when it is over. If the memory-mapping initialiser comes first and is not overtaken by a query, the work is done in the one order in which each step finds what it needs: index, existing mappings, break, loaded files, traps, metadata, types.", "quantifier": "every sequence of calls of the initialisers and of the check that precedes each query, and every choice of calls made during each piece of start-up work", "why_tests_cant": "the order of constructors of equal priority and re-entry from callbacks vary with linker, program and environment; each combination is another run", "anchors": ["src/init.c: __liballocs_global_init, __liballocs_post_systrap_init", "src/allocators/mmap.c: __mmap_allocator_init", "src/allocators/static-file.c: __static_file_allocator_init", "src/allocators/static-segment.c: __static_segment_allocator_init", "include/liballocs.h: __liballocs_ensure_init"]}
{"id": "C67", "title": "The program's signal calls work as before, and cannot take the library's handler away", "statement": "signal and sigaction give, for every signal but SIGILL, the answer, the errno and the effect they have without the library, whatever was asked of SIGILL in between; and no use of the two changes SIGILL's handler, by which system calls are seen. Numbers in the messages before an abort are the decimal digits of the number. Being first in the link map is decided by the last component of the first path that is neither the program nor the vDSO, and the answer stays the same.", "quantifier": "every history of signal calls from every signal state; every non-negative int; every link map and every sequence of link maps", "why_tests_cant": "any interleaving of calls about any signals; all numbers", "anchors": ["src/preload.c: signal, sigaction, write_decint", "src/ifunc.c: check_head_preload_position"]}
{"id": "C68", "title": "A heap object has one type, its site's until set, and setting it changes that object only", "statement": "At any moment of any run, asking for the type at any address of a live heap object answers the type of the site that allocated it, or the type last set for it, whatever other objects were allocated, freed, resized, asked about or retyped since, whatever the memory held before, and whatever the program wrote to its own objects. Setting a type through any address of an object changes it for every address of that object and for no other, and fails no assertion. Adding a type to a block makes its type the union of the old and an array of the new.", "quantifier": "every history of allocations, frees, reallocations, queries, type changes and program writes, in debug and release builds; every live object and every address in it; every table of sites and types", "why_tests_cant": "each answer depends on the index, the placement of every chunk's metadata word and every write since; no finite set of histories covers the layouts", "anchors": ["src/query.c: __liballocs_set_alloc_type, __liballocs_add_type_to_block, __liballocs_get_type", "include/generic_malloc_index.h: __generic_malloc_get_info, __generic_malloc_set_type, lookup_object_info, __generic_malloc_index_insert", "include/malloc-meta.h: struct insert"]}
{"id": "C69", "title": "Threads using the table of big allocations at once each see their calls happen one at a time", "statement": "However the accesses of several threads interleave, each call on the table of big allocations (create, delete, extend, truncate, split, look up) takes effect at one instant between being made and returning, in an order which respects each thread's own and which call returned before which was made. If every caller keeps to its contract, no thread aborts, every answer to a lookup was right at that instant, and whenever no thread is inside the table it is one that some sequence of calls could have made. No run deadlocks or goes on for ever.", "quantifier": "every number of threads, every list of calls for each, every starting table, every schedule of their individual accesses to shared memory, and every moment of the run", "why_tests_cant": "the interleavings are too many to enumerate, and a test cannot choose where the scheduler switches", "anchors": ["src/pageindex.c: BIG_LOCK, BIG_UNLOCK, __liballocs_new_bigalloc, __liballocs_delete_bigalloc_at, __liballocs_extend_bigalloc, __adjust_bigalloc_end, __lookup_bigalloc_top_level, __lookup_deepest_bigalloc, add_child", "include/pageindex.h: __liballocs_leaf_allocator_for", "src/allocators/stack.c: __stack_allocator_notify_unindexed_address"]}
{"id": "C70", "title": "Threads allocating, freeing and looking up heap chunks at once do not disturb each other", "statement": "However the accesses of several threads to one arena's heap index interleave, each allocation and each free takes effect at one instant, in an order which respects each thread's own; no thread aborts or reads memory that is freed or was never written; and whenever no thread is inside the index it holds exactly the chunks allocated and not freed. Looking up an address of a chunk that stays allocated is answered with that chunk, whatever other threads allocate and free meanwhile.", "quantifier": "every number of threads, every list of calls for each, every starting index, every schedule of their individual accesses to shared memory, and every moment of the run", "why_tests_cant": "the interleavings are too many to enumerate, and a test cannot choose where the scheduler switches", "anchors": ["include/generic_malloc_index.h: BIG_LOCK, arena_for_userptr, ensure_arena_has_info, ensure_has_bitmap_to, __generic_malloc_index_insert, __generic_malloc_index_delete, lookup_object_info_via_bitmap"]}
{"id": "C71", "title": "Before system calls are seen, looking up a heap address the records have not caught up with", "statement": "Before the library sees system calls the C library may move the program break without notice. Looking up an address in the part the heap has gained, by the allocator that owns it, then brings the records up to date and finds the heap, as long as the address is within 128 pages of the recorded end; looking up any other address changes nothing.", "quantifier": "every reachable state of the records, every address, every position of the break and every allocator asked for", "why_tests_cant": "it depends on how far, and from where in a page, the break was moved, and only happens in a window during start-up", "anchors": ["src/pageindex.c: find_bigalloc_recursive, __lookup_bigalloc_from_root", "src/allocators/brk.c: __brk_allocator_notify_brk"]}
{"id": "C72", "title": "Threads in the library never wait for each other for ever", "statement": "However many threads allocate, free, reallocate, index small objects, query and change the records at once, there is always one that can go on until all have returned: the library's locks never form a cycle of waiting threads, every call returns, and when all have returned no lock is left held.", "quantifier": "every number of threads, every list of calls for each, every outcome of every data-dependent branch, and every schedule", "why_tests_cant": "a deadlock needs particular threads to be at particular points at once; tests see a few of the schedules", "anchors": ["src/pageindex.c: BIG_LOCK, BIG_UNLOCK and every function which uses them", "include/generic_malloc_index.h: BIG_LOCK, __generic_malloc_index_insert, __generic_malloc_index_delete, arena_for_userptr", "src/allocators/generic_small.c: __index_small_alloc, __unindex_small_alloc", "src/allocators/stack.c: __stack_allocator_notify_unindexed_address", "src/err.c: get_stream_err"]}
{"id": "C73", "title": "Messages go where LIBALLOCS_ERR says", "statement": "Every message at or below the debug level is printed, whole and in order, to the file LIBALLOCS_ERR names, or to stderr if that is unset or the file cannot be opened; printing always returns.", "quantifier": "every sequence of messages, every debug level, every limit on open files and every previous content of the file", "why_tests_cant": "it depends on how many messages came before and on the environment, and the failures show only at exit or when descriptors run out", "anchors": ["src/err.c: get_stream_err", "src/liballocs_private.h: debug_printf"]}
{"id": "C74", "title": "The library's own memory is never given to two threads", "statement": "When several threads make the library allocate memory of its own at once, no two are given overlapping memory, all of it lies in the library's heap, and each chunk stays marked as allocated from its allocation until it is freed.", "quantifier": "every number of threads, every list of requests for each, every starting break, and every schedule", "why_tests_cant": "the result depends on which thread runs between two memory accesses of another", "anchors": ["src/dlmalloc-ext.c: emulated_sbrk, set_metadata, clear_metadata", "src/Makefile: nommap-dlmalloc.o", "include/generic_malloc_index.h: __generic_malloc_index_insert", "src/allocators/generic_small.c: __index_small_alloc"]}
{"id": "C75", "title": "Statics that have no symbol in their file are found through the extra symbols written for them", "statement": "For every set of symbols given to it, the extra-symbols tool writes a table that has each of them, in order, with its value, size, kind and name; the library finds that table when the file is loaded; and an address in a static that only has a symbol there is answered with the static's type, start and size.", "quantifier": "every list of symbols, every name, every layout of statics and every address", "why_tests_cant": "the tool, the compiler, the loader and the query are separate programs which agree only through names and numbering, for every input", "anchors": ["tools/extrasyms.cpp: main", "src/allocators/static-file.c: __static_file_allocator_notify_load", "tools/metavector.cpp: main", "allocsld/allocinstr.c: walk_all_ld_so_symbols"]}
{"id": "C76", "title": "Cached answers are right when several threads query at once", "statement": "When several threads make cached queries and invalidations at once, every answer taken from the cache is a range that was put in and contains the address asked for, nothing invalidated is answered afterwards, and every query ends without touching memory outside the cache.", "quantifier": "every number of threads, every list of cache calls for each, every capacity below 32, and every schedule of their memory accesses", "why_tests_cant": "the result depends on which thread runs between two memory accesses of another", "anchors": ["src/cache.c: __liballocs_ool_cache, __liballocs_uncache_all", "include/liballocs_cil_inlines.h: __liballocs_memrange_cache_lookup, __liballocs_memrange_cache_lookup_notype, __liballocs_cache_with_type, __liballocs_cache_unlink, __liballocs_cache_push_head_mru"]}
{"id": "C77", "title": "Each allocation site is given the type whose size the program asks for", "statement": "For every C function and every allocation call in it, the type recorded for the call at compile time is the one whose size the argument counts: if it is recorded as whole elements of T, then on every path the program asks for a whole number of T's; and an argument counting T's, through any locals, is so recorded.", "quantifier": "every function body (statements nested to any depth, any number of locals and assignments), every size expression, every path to the call and every initial store", "why_tests_cant": "the recorded type depends on the whole function and on every path to the call; a test compiles and runs a few functions", "anchors": ["tools/lang/c/dumpallocs/dumpallocs.ml: getSizeExpr, accumulateOverStatements, untilFixedPoint, parseSignature, matchUserAllocArgs, getUserAllocExpr", "tools/lang/c/cilallocs/cilallocs.ml: decayArrayInTypesig, tsMatchModuloSignedness"]}
{"id": "C78", "title": "Compiling ends: the search for which locals hold sizes reaches a fixed point", "statement": "For every C function the compile-time search for the locals that hold sizes stops.", "quantifier": "every function body, of any number of statements and locals", "why_tests_cant": "non-termination shows only on functions whose locals depend on each other in a cycle; no finite set of compilations settles it", "anchors": ["tools/lang/c/dumpallocs/dumpallocs.ml: getSizeExpr, accumulateOverStatements, untilFixedPoint, parseSignature, matchUserAllocArgs, getUserAllocExpr", "tools/lang/c/cilallocs/cilallocs.ml: decayArrayInTypesig, tsMatchModuloSignedness"]}
{"id": "C79", "title": "A call is listed as an allocation just when a signature names its function", "statement": "A call is listed as an allocation exactly when one of the built-in or user-given signatures has the called function's name and number of arguments, and its type is then taken from the argument marked by the first capital letter, or from the returned pointer if none is marked.", "quantifier": "every call (any function, any arguments), every list of signatures of any length", "why_tests_cant": "the lists of signatures and of calls are unbounded, and matching depends on all of them in order", "anchors": ["tools/lang/c/dumpallocs/dumpallocs.ml: getSizeExpr, accumulateOverStatements, untilFixedPoint, parseSignature, matchUserAllocArgs, getUserAllocExpr", "tools/lang/c/cilallocs/cilallocs.ml: decayArrayInTypesig, tsMatchModuloSignedness"]}
{"id": "C80", "title": "Different types have different symbols", "statement": "For all C types, two types given the same symbol at compile time are the same type, or arithmetic types of one form and width; and an array type made at run time has the symbol the compiler gives it. Escaping other strings into symbols loses nothing and gives only characters of identifiers.", "quantifier": "every pair of types, nested to any depth (pointers, arrays, functions of any number of arguments, tags of any length), and every string", "why_tests_cant": "a collision may occur between any two of infinitely many types; tests name a few", "anchors": ["tools/lang/c/cilallocs/cilallocs.ml: identFromString, dwarfEncodingForBaseType, baseTypeRawStr, barenameFromSig, symnameFromSig", "src/uniqtype-util.c: get_or_create_array_type"]}
{"id": "C81", "title": "Instrumented functions behave as before, and report every alloca", "statement": "For every C function, on every execution, the function compiled with alloca monitoring ends as the original does, with the same variables, memory and other calls, as if alloca had returned the address handed out; and the library is notified of every stack allocation as it is made, with its size, its place in the source and the frame's counter, and on leaving the function of the exact total.", "quantifier": "every function body (statements nested to any depth, any loops and numbers of calls), every initial state, every behaviour of the functions called, and all addresses alloca returns", "why_tests_cant": "the rewriting acts on every program, and agreement is of whole executions; tests run a few programs", "anchors": ["tools/lang/c/monalloca/monalloca.ml: findCleanupLocal, ensureCleanupLocal, monAllocaExprVisitor, monAllocaFunVisitor", "include/liballocs_cil_inlines.h: __liballocs_alloca_size, __liballocs_notify_and_adjust_alloca, __liballocs_alloca_caller_frame_cleanup"]}
{"id": "C82", "title": "Every pointer stored to memory is notified first, and programs otherwise run as before", "statement": "For every C function compiled with pointer-store trapping, on every execution: before each store to memory that is not written as one to a local variable, the library is told of every pointer in what is stored, with the address it goes to and the value it will have, exactly once each and of nothing else; and the function ends with the same result, variables, memory and calls as without trapping.", "quantifier": "every function body (statements nested to any depth, any loops and numbers of calls), all stored types (structures, unions, arrays and typedefs nested to any depth), every initial state, every behaviour of the functions called", "why_tests_cant": "the rewriting acts on every program and recurses over every type, and agreement is of whole executions; tests run a few programs", "anchors": ["tools/lang/c/trapptrwrites/trapptrwrites.ml: trapPtrWrites, typNeedTrapCalls, lvNeedTrapCalls, addTrapCallsForLval", "src/lifetime_policies.c: __notify_ptr_write, __notify_copy"]}
{"id": "C83", "title": "The compiler wrapper compiles with what it was given", "statement": "For every command line with -c that the compiler accepts, the wrapper runs the compiler with the same sources and place-bound options in the same order, every other option once with its value, header directories in the order given, the same output file, and nothing for the linker; it never drops a word, changes what a word means, or stops.", "quantifier": "every command line: any number and order of sources, flags, options with values, include options and words for the linker, with any names and values", "why_tests_cant": "command lines are unbounded and option spellings interact; a build tries the few shapes its makefile has", "anchors": ["tools/compilerwrapper.py: classifyArguments, argItem, argOption, optionsForPhases, flatOptions, itemsForPhases, flatItems, runPhasesBeforeLink, guessInputLanguageFromFilename, phasesForInputLanguage"]}

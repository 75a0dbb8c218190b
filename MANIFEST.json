{
 "claims": [
  {
   "property": "C01",
   "status": "proved",
   "theorems": [
    "big_lookup_innermost",
    "big_leaf_lookup_innermost",
    "big_lookup_unique",
    "big_leaf_allocator",
    "big_find_by_allocator",
    "big_top_level_lookup"
   ],
   "note": "over every reachable table (any number of records, any history of legal calls)"
  },
  {
   "property": "C02",
   "status": "proved",
   "theorems": [
    "big_forest_always",
    "big_calls_succeed"
   ],
   "note": "invariant by induction over histories; legal calls never abort"
  },
  {
   "property": "C03",
   "status": "proved",
   "theorems": [
    "big_delete_exact",
    "big_delete_lookup",
    "big_delete_at_exact",
    "big_delete_oversized_refuted"
   ],
   "note": "exact for every allocation not exceeding the size limit; an allocation grown past the limit can never be deleted (refuted)"
  },
  {
   "property": "C04",
   "status": "partial",
   "theorems": [
    "big_create_exact",
    "big_create_partial",
    "big_create_swallow_refuted"
   ],
   "note": "false of the code when an existing allocation lies strictly inside the request; proved otherwise"
  },
  {
   "property": "C05",
   "status": "partial",
   "theorems": [
    "big_mapping_below",
    "big_mapping_at_or_above_partial",
    "big_mapping_at_or_above_refuted"
   ],
   "note": "'below' proved; 'at or above' wrongly answers none when nothing begins below the address"
  },
  {
   "property": "C06",
   "status": "partial",
   "theorems": [
    "big_common_parent_partial",
    "big_common_parent_refuted"
   ],
   "note": "sound always; complete only in the listed cases"
  },
  {
   "property": "C07",
   "status": "partial",
   "theorems": [
    "big_delete_range_partial",
    "big_delete_range_refuted"
   ],
   "note": "exact when either end is page aligned (the only caller passes aligned ranges); false otherwise"
  },
  {
   "property": "C08",
   "status": "partial",
   "theorems": [
    "big_split_partial",
    "big_split_refuted",
    "big_split_double_free_refuted"
   ],
   "note": "exact when no child spans the boundary; false otherwise; both halves share private data"
  },
  {
   "property": "C09",
   "status": "partial",
   "theorems": [
    "map_mirrors_partial",
    "map_mmap_exact_partial",
    "map_fixed_file_refuted",
    "map_fixed_file_front_refuted",
    "map_fixed_abut_refuted",
    "mprotect_stale_refuted"
   ],
   "note": "Proved for every history of mmap and munmap notifications and calls by other allocators, for new mappings in free space and for anonymous MAP_FIXED mappings within one anonymous mapping. Missing, because false: file-backed MAP_FIXED over an existing mapping, a fixed mapping at the very start of a mapping that abuts another, and mprotect, which leaves stale protection bits. File offsets are excluded from the mirrored attributes."
  },
  {
   "property": "C10",
   "status": "partial",
   "theorems": [
    "map_munmap_exact_partial",
    "munmap_offset_refuted",
    "munmap_inner_refuted"
   ],
   "note": "Proved for every reachable state and every range in which no surviving allocation straddles the cut. Missing, because false: file offsets after a front or hole unmap, and partial unmaps that cut an allocation nested in the mapping."
  },
  {
   "property": "C11",
   "status": "partial",
   "theorems": [
    "map_sequences_tidy_partial",
    "seq_ok_contiguous",
    "map_past_end_refuted"
   ],
   "note": "Proved for every reachable state under the caller's duties. Without a spare slot a MAP_FIXED placement writes past the array."
  },
  {
   "property": "C12",
   "status": "partial",
   "theorems": [
    "map_query_exact_partial"
   ],
   "note": "Proved for every reachable state and every address, under the caller's duties of C09 and C10."
  },
  {
   "property": "C13",
   "status": "partial",
   "theorems": [
    "brk_tracks_partial",
    "brk_move_exact_partial",
    "brk_touch_exact_partial",
    "brk_start_partial",
    "brk_lookup_partial",
    "map_brk_exact_partial",
    "brk_start_refuted",
    "brk_unchanged_refuted",
    "brk_mid_page_refuted",
    "brk_gap_refuted"
   ],
   "note": "Proved for every history of break moves, unindexed-address queries and other mapping activity, once a first move has been notified, for breaks whose segment starts on an earlier page than the change. False: before the first move the segment is recorded beyond the break; a break starting mid-page aborts or leaves an empty record and mis-indexes the page; a break starting in a gap makes the gap reported as mapped."
  },
  {
   "property": "C14",
   "status": "partial",
   "theorems": [
    "heap_alloc_partial",
    "heap_free_exact",
    "heap_realloc_partial",
    "heap_lookup_small_partial",
    "heap_lookup_large_partial",
    "heap_lookup_unindexed_partial",
    "heap_query_pure",
    "heap_size_refuted",
    "heap_large_metadata_refuted",
    "heap_stale_start_refuted",
    "heap_free_space_refuted",
    "heap_empty_refuted",
    "heap_padding_refuted",
    "heap_failed_realloc_refuted",
    "heap_shrink_refuted"
   ],
   "note": "Proved for every history of allocations, frees, reallocations and other allocators' calls: frees always succeed and undo exactly the chunk; a query in the requested bytes finds the chunk's start. False: the size of small chunks is eight bytes short, the metadata word answered for large chunks is not the one written, a freed large chunk's start stays marked, free space is answered with the chunk before it, empty chunks and padding at the bitmap's frontier leave the bitmap, and failed or shrinking reallocations."
  },
  {
   "property": "C15",
   "status": "partial",
   "theorems": [
    "metadata_disjoint_partial",
    "metadata_aligned_partial",
    "enlarged_size_tight",
    "metadata_disjoint_huge_refuted",
    "metadata_aligned_refuted"
   ],
   "note": "every heap with requested sizes up to 2^64-16; false beyond (size wraps); alignment needs the allocator's usable sizes to be multiples of 8"
  },
  {
   "property": "C16",
   "status": "partial",
   "theorems": [
    "site_roundtrip",
    "type_roundtrip_partial",
    "policy_roundtrip",
    "type_roundtrip_low_refuted",
    "id_roundtrip_refuted",
    "set_type_keeps_policies_refuted",
    "fresh_policies_refuted"
   ],
   "note": "types below 2^35 are misread, ids of 2^14 or more are truncated, storing a type drops the policies, and a fresh chunk inherits stale policies"
  },
  {
   "property": "C17",
   "status": "partial",
   "theorems": [
    "type_query_stable_partial",
    "site_query_stable_debug",
    "unrecognised_sites_exact",
    "site_query_stable_refuted",
    "unrecognised_twice_refuted",
    "type_query_stable_low_refuted"
   ],
   "note": "type stable over every history when types live at or above 2^35; the site is forgotten after the first query in release builds"
  },
  {
   "property": "C18",
   "status": "proved",
   "theorems": [
    "cache_structure_always",
    "cache_is_lru",
    "cache_capacity_32_refuted"
   ],
   "note": "any capacity below 32 (the default is 8); at 32 the mask arithmetic is undefined (refuted)"
  },
  {
   "property": "C19",
   "status": "proved",
   "theorems": [
    "cache_hit_fresh",
    "uncache_overlap_refuted"
   ],
   "note": "every history; invalidation goes by base address only, so an overlapping record that begins earlier survives it (refuted separately)"
  },
  {
   "property": "C20",
   "status": "proved",
   "theorems": [
    "cache_is_lru"
   ],
   "note": "refinement to a relational least-recently-used cache over every history"
  },
  {
   "property": "C21",
   "status": "partial",
   "theorems": [
    "base_query_coherent_partial",
    "base_query_progress",
    "base_query_nested_refuted",
    "base_query_silent_free_refuted"
   ],
   "note": "proved for disjoint leaf objects each invalidated when freed; false when an object is created inside an already cached one, and for allocators (mmap) that never invalidate"
  },
  {
   "property": "C22",
   "status": "proved",
   "theorems": [
    "subobject_search_sound",
    "subobject_search_sound_any",
    "subobject_search_total"
   ],
   "note": "every descriptor and offset"
  },
  {
   "property": "C23",
   "status": "partial",
   "theorems": [
    "subobject_search_complete_partial",
    "subobject_search_exact_partial",
    "subobject_search_empty_refuted",
    "subobject_search_overlap_refuted"
   ],
   "note": "every non-empty subobject of a well-formed layout is found; false for empty subobjects and for overlapping members at different offsets"
  },
  {
   "property": "C24",
   "status": "partial",
   "theorems": [
    "inner_type_terminates",
    "inner_type_covers_partial",
    "inner_type_covers_refuted"
   ],
   "note": "always terminates; the result covers the offset in layouts without padding; in padding it does not (refuted)"
  },
  {
   "property": "C25",
   "status": "partial",
   "theorems": [
    "spanning_walk_exact",
    "spanning_walk_complete",
    "spanning_walk_sound_partial",
    "spanning_walk_sound_refuted",
    "spanning_walk_empty_elem_refuted"
   ],
   "note": "visits characterised exactly for every callback; all spanning subobjects visited; others visited only in padding or shorter union members; zero-size array elements divide by zero"
  },
  {
   "property": "C26",
   "status": "partial",
   "theorems": [
    "df_walk_big_partial",
    "df_walk_typed",
    "contents_unique",
    "traverse_visits_all",
    "traverse_never_skip_code",
    "df_walk_address_order",
    "df_walk_unwalkable_refuted",
    "walk_imposed_child_refuted"
   ],
   "note": "exact for every callback from any typed object and any big allocation whose openable contents can be walked; otherwise a null function pointer is called; imposed children are reported as their container"
  },
  {
   "property": "C27",
   "status": "partial",
   "theorems": [
    "bfs_terminates_partial",
    "bfs_once_partial",
    "bfs_root_first",
    "bfs_sound_partial",
    "bfs_closed_partial",
    "bfs_exact_partial",
    "bfs_by_distance_partial",
    "bfs_neighbours_partial",
    "queue_fifo",
    "bfs_far_objects_refuted",
    "bfs_inner_array_refuted",
    "bfs_all_ones_refuted",
    "bfs_two_types_refuted"
   ],
   "note": "Proved for every finite graph (cycles included) whose reachable objects lie within 2 GiB: termination, each object once, root first, soundness, closure, and, when no object is reached at two types, exactness and order by shortest distance. Neighbours are exact for types with no array inside a structure. Refuted outside those hypotheses: objects 4 GiB apart are conflated, pointers in arrays within structures are not followed, a stored (void*)-1 is visited, objects reachable through a second type are missed."
  },
  {
   "property": "C28",
   "status": "partial",
   "theorems": [
    "intern_describes_partial",
    "intern_distinct_partial",
    "intern_same",
    "precise_partial",
    "intern_code_refuted",
    "intern_unnamed_refuted",
    "intern_long_refuted",
    "intern_size_refuted",
    "intern_flex_refuted",
    "intern_fun_overflow_refuted",
    "intern_union_overflow_refuted",
    "intern_union_concat_refuted",
    "precise_count_refuted"
   ],
   "note": "Asking again gives the same type, for all kinds and histories (intern_same). For arrays, pointers and functions over types with distinct simple names, and names and sizes that fit: every answer is the type asked for, two answers are equal exactly if the requests are (the names can be read in one way only), open-ended arrays get as many elements as fit. False otherwise: types told apart only by hash codes, unnamed types, names over 4095 characters; sizes wrap at 32 bits; unbounded and flexible arrays are confused; unions of different members share names; function and union names overflow their buffers."
  },
  {
   "property": "C29",
   "status": "partial",
   "theorems": [
    "site_ids_roundtrip_partial",
    "site_ids_distinct_partial",
    "site_ids_257_files_refuted",
    "site_ids_wrap_refuted",
    "site_ids_exact_refuted"
   ],
   "note": "every legal load/unload history of at most 256 tables and 65535 sites"
  },
  {
   "property": "C30",
   "status": "partial",
   "theorems": [
    "memtable_entry_iff_bucket_partial",
    "memtable_roundtrip_partial",
    "memtable_mapping_exact",
    "memtable_upper_half_refuted",
    "memtable_full_bytes_refuted"
   ],
   "note": "every table over addresses below 2^63; the signed division is wrong above"
  },
  {
   "property": "C31",
   "status": "partial",
   "theorems": [
    "alloca_fits",
    "alloca_metadata_kept",
    "alloca_found_partial",
    "alloca_only_live",
    "alloca_leave_exact",
    "alloca_calls_succeed_partial",
    "alloca_size_short_refuted",
    "alloca_large_refuted",
    "alloca_zero_refuted",
    "alloca_interior_refuted",
    "alloca_wrap_refuted"
   ],
   "note": "Proved for every nesting of frames, every sequence of non-zero sizes and arbitrary stores by the program elsewhere: metadata fits and survives, chunks of up to 128KiB are found at every address, no dead chunk is answered, and leaving a frame visits exactly its chunks. False: bigger chunks cannot be queried (assertion failure in debug builds), alloca(0) fails, the size reported is eight bytes short, and debug builds abort on some interior queries. The forest of records is abstracted to the frames' ranges."
  },
  {
   "property": "C32",
   "status": "partial",
   "theorems": [
    "small_exact_partial",
    "small_two_bytes_partial",
    "small_table",
    "small_size_refuted",
    "small_no_size_refuted",
    "small_full_refuted",
    "small_byte_refuted",
    "small_pitch_refuted",
    "small_pitch_long_refuted",
    "small_site_refuted",
    "small_big_refuted",
    "small_absent_refuted"
   ],
   "note": "Proved for every history of recordings (each dropping what it overlaps) and removals: every address of the container is attributed to the recorded object covering it, with its start and allocation site, or to none, if buckets keep a free layer; objects of two bytes or more in buckets of four or more always leave one (small_two_bytes_partial). The pitch chosen is a power of two up to 256 and the table covers the container. False: the size told is only the part in the first bucket, or none; full buckets (one-byte objects) are read past the table; objects with 256 bytes in their first bucket are not found there; null or small sites; four megabytes; removing what is not recorded."
  },
  {
   "property": "C33",
   "status": "partial",
   "theorems": [
    "packed_query_right",
    "packed_query_partial",
    "packed_walk_partial",
    "strings_tile",
    "packed_walk_strings",
    "packed_string_query_never",
    "packed_string_query_refuted",
    "packed_walk_range_refuted",
    "packed_walk_inside_refuted",
    "packed_walk_empty_refuted",
    "packed_walk_type_refuted",
    "packed_size_refuted",
    "packed_unaligned_refuted",
    "packed_overflow_refuted",
    "packed_type_refuted"
   ],
   "note": "Answered queries are right after any history of queries and walks (packed_query_right); they are always answered when elements have no padding (packed_query_partial). Walks to the end visit each element once, in order, with number, type and size (one type, no padding), unconditionally for strings. Refuted: queries of families without records (all strings) are undefined; bounded walks mis-size the last element; walks from inside an element or of an empty sequence visit a non-element; walks give all elements the first one's type; sizes truncated by record fields; unaligned first element; a bitmap write out of bounds with padding; unlisted types."
  },
  {
   "property": "C34",
   "status": "partial",
   "theorems": [
    "linear_lookup_partial",
    "linear_usable_partial",
    "linear_far_refuted",
    "linear_capacity_refuted",
    "linear_empty_refuted",
    "linear_size_refuted"
   ],
   "note": "Proved for every history of allocations, frees and reallocations of non-empty disjoint chunks in a 2GiB window, at most 253 at a time: lookups give the live chunk containing the address or none, and usable sizes are right. Each condition is shown necessary: chunks over 2GiB apart are mis-sorted and missed, the 254th is recorded outside the page, freeing an empty chunk follows null, sizes are kept in 32 bits."
  },
  {
   "property": "C35",
   "status": "partial",
   "theorems": [
    "static_found_partial",
    "static_outside_partial",
    "static_reloc_size_refuted",
    "static_end_refuted",
    "static_nested_refuted",
    "static_name_refuted"
   ],
   "note": "Proved for every sorted table of objects that do not overlap: an address in one is answered with its type, start and (for symbols) size, others are errors. False: relocation targets get their end as their size, one past an object's end is answered, an address after an object nested in its own is not found, and asking for the name of any address from 128MiB up reads outside an array."
  },
  {
   "property": "C36",
   "status": "partial",
   "theorems": [
    "auxv_found_partial",
    "auxv_type_partial",
    "auxv_outside",
    "auxv_terminator_refuted",
    "auxv_env_type_refuted",
    "auxv_end_refuted"
   ],
   "note": "Proved for every layout of the initial stack: addresses in an object get its start and size, and its type except for the environment vector; nothing else is answered. False: bytes 1 on of a vector's terminating element are not found, the environment vector is always typed as one element, and one past the strings' end is answered. Where the vectors lie is supplied by librunt."
  },
  {
   "property": "C37",
   "status": "partial",
   "theorems": [
    "frame_sound",
    "frame_outside",
    "frame_complete_partial",
    "frame_local_partial",
    "frame_no_pointer_refuted",
    "frame_foreign_refuted"
   ],
   "note": "Proved for every stack: an answer is always the extent of an active frame and contains the address; with frame pointers kept and extents in stack order every address in an extent is answered. False: a caller using the frame-pointer register for other data can make its callee's frame be passed over; a function with no locals in its frame may be described by another's. The unwinder is a list of frames."
  },
  {
   "property": "C38",
   "status": "partial",
   "theorems": [
    "life_released_iff_unattached",
    "life_never_early_never_twice",
    "life_calls_return",
    "life_register_partial",
    "life_register_refuted",
    "life_stale_refuted",
    "life_detach_dying_refuted"
   ],
   "note": "Proved for every history of registrations, allocations, attaches, detaches, frees and pointer writes, with any policies whose callbacks do no more than detach themselves, including releases nested in releases. False: the first registration that should be refused writes past the table; a new chunk inherits stale policy bits and is then never released; a callback that detaches a policy from the object being released releases it twice."
  },
  {
   "property": "C39",
   "status": "partial",
   "theorems": [
    "metavec_lookup_partial",
    "metavec_first_refuted",
    "metavec_after_last_refuted",
    "metavec_align_refuted",
    "metavec_base_refuted",
    "metavec_shortcut_refuted",
    "metavec_far_refuted",
    "metavec_range_refuted"
   ],
   "note": "Proved for every set of records and every address, under: byte-aligned records, a first address in the lower half of a bitmap word, first address and range multiples of the shortcut scale, range below 2^31, address not the first record's own and not in a shortcut range after the last record's. Each of those conditions is shown necessary by a refutation."
  },
  {
   "property": "C40",
   "status": "partial",
   "theorems": [
    "addrlist_remembers_partial",
    "addrlist_overflow_refuted"
   ],
   "note": "every sequence of up to 2^32-2 additions; one more writes past the storage"
  },
  {
   "property": "C41",
   "status": "proved",
   "theorems": [
    "big_stack_adoption"
   ],
   "note": "first stack near enough with an unoccupied gap is grown, with all its ancestors; otherwise nothing changes"
  },
  {
   "property": "C42",
   "status": "proved",
   "theorems": [
    "big_extend_exact",
    "big_truncate_end_exact",
    "big_truncate_begin_exact",
    "big_pre_extend_exact"
   ],
   "note": "for unaligned allocations the admissible-boundary condition in grow_end/shrink_end is needed"
  },
  {
   "property": "C43",
   "status": "partial",
   "theorems": [
    "refs_walk_outermost_partial",
    "refs_walk_stop_refuted"
   ],
   "note": "exact unless the client answers -1, which does not stop the walk"
  },
  {
   "property": "C44",
   "status": "partial",
   "theorems": [
    "remap_same_partial",
    "remap_shrink_partial",
    "remap_grow_partial",
    "remap_second_view_partial",
    "remap_move_partial",
    "remap_move_whole_partial",
    "remap_unaligned_refuted",
    "remap_onto_refuted",
    "remap_move_grow_refuted",
    "remap_anonymous_refuted"
   ],
   "note": "Proved for every reachable state: no change, shrinking by whole pages, growing in place, second view, and moving a range over any number of entries to a free place. Missing: moving to just behind another mapping, entries that begin within a page. False: sizes that are not whole pages, moving onto existing mappings, moving and growing at once, anonymous pages of a sequence that has a file."
  },
  {
   "property": "C45",
   "status": "partial",
   "theorems": [
    "rc_counts_exact",
    "rc_referenced_kept",
    "rc_unreferenced_collected",
    "life_list_advance_refuted",
    "life_self_assign_refuted",
    "rc_uninitialised_refuted"
   ],
   "note": "Proved for every history in which storage starts null and is still in use when written to. False: p = p->next and p = p release an object the new value refers to; an object whose storage held an old pointer drops a reference that was never counted."
  },
  {
   "property": "C46",
   "status": "partial",
   "theorems": [
    "copy_free_exact",
    "copy_exact_partial",
    "copy_once_partial",
    "copy_pointerless_refuted",
    "copy_short_struct_refuted",
    "copy_empty_refuted",
    "copy_interior_refuted",
    "copy_union_refuted"
   ],
   "note": "Proved for all types and layouts: frees notify exactly the object's pointers; copies over consecutive objects notify exactly the pointers in range with the right sources, when the range ends between objects or inside one at a suitable place. False otherwise: ending inside a pointerless object wraps the remaining length, ending before a structure's later member notifies that member, an empty object loops for ever, a copy to a member is taken as one to the object's start, and a union's pointers are notified once per member."
  },
  {
   "property": "C47",
   "status": "partial",
   "theorems": [
    "frametab_locals",
    "frametab_extent_partial",
    "frame_local_partial",
    "frametab_gap_refuted",
    "frametab_extent_refuted"
   ],
   "note": "Proved for every set of functions, ranges and locals: the table gives exactly the locals of the range, at their places, all within the extent if none overlap. False: a range without locals gets the preceding range's description, even another function's; with overlapping locals one may stick out of the extent."
  },
  {
   "property": "C48",
   "status": "partial",
   "theorems": [
    "metatab_sorted",
    "metatab_static_found",
    "metatab_reloc_found_partial",
    "metatab_reloc_past_segment_refuted",
    "metatab_reloc_high_refuted"
   ],
   "note": "Proved for all statics and relocation targets: tables are sorted without overlap, every described static is found with its type, start and size, every other target below 2^31 is found. False: a segment's last target extends into the next segment, targets from 2^31 up have no record. Which statics are sanely described is supplied by liballocstool, as is the numbering of extra symbols."
  },
  {
   "property": "C49",
   "status": "partial",
   "theorems": [
    "area_once_partial",
    "area_two_files_refuted",
    "area_shared_refuted",
    "area_info_refuted"
   ],
   "note": "Proved for all sequences of chunks from an empty anonymous mapping or from after the only file of a mapping: one area, containing them, apart from the file. False: with two files in one mapping or another user of an anonymous mapping the area covers them; describing the area always aborts, as the variable it is read from is shadowed where it should be set."
  },
  {
   "property": "C50",
   "status": "partial",
   "theorems": [
    "file_load_exact",
    "file_load_break_exact",
    "file_load_hole_exact",
    "file_history_exact",
    "file_lookup_exact",
    "file_unload_exact",
    "file_load_unload_restores",
    "file_unload_without_metadata_refuted",
    "file_unload_same_name_refuted",
    "file_parts_site_refuted",
    "file_start_exact_refuted",
    "file_overlapping_sections_refuted",
    "file_hole_keeps_upper_refuted",
    "file_load_abutting_refuted"
   ],
   "note": "Proved for every history and every sane file (segments apart, sections apart and each in a segment) whose mapping has room for it: loads record exactly the file, segments and sections as nested; addresses are attributed to section, segment or file; unloading a name removes exactly the files of that name, and undoes a load. False: unloading a file without a metadata object closes a null handle; two files of one name go together; the site told for segments and sections is another word; bytes before the file's first are attributed to it; sections overlapping .tbss are not recorded; filling a hole forgets what was recorded above it; abutting mappings abort."
  },
  {
   "property": "C51",
   "status": "partial",
   "theorems": [
    "scan_exact_partial",
    "scan_between_refuted",
    "scan_gap_refuted",
    "scan_twice_refuted",
    "scan_anon_inode_refuted",
    "scan_protected_refuted",
    "scan_thread_stack_refuted"
   ],
   "note": "Proved for every list of page-aligned lines in order, each unknown so far or exactly a recorded one-entry anonymous mapping that has listed pages on at most one side and is in no run with another, given enough free records; the scan is one of the steps of the mapping histories, so C09-C12 hold after it. False otherwise: pages on both sides of a recorded mapping are recorded over it; a gap filled between two recorded mappings, a second scan, an anonymous inode or a thread's stack below the initial one abort; a recorded mapping whose protection was changed in part is deleted with all that is recorded in it."
  },
  {
   "property": "C52",
   "status": "partial",
   "theorems": [
    "scan_stack_lookup_partial"
   ],
   "note": "Proved for every address of the stack's line, in every state the scan of C51 leads to, under C51's conditions."
  },
  {
   "property": "C53",
   "status": "partial",
   "theorems": [
    "exe_extent_exact",
    "exe_none_refused",
    "exe_shared_page_refuted",
    "exe_no_phdr_refuted",
    "exe_phdr_second_refuted"
   ],
   "note": "Proved for every load address and every program header table whose segments are in order, not empty and share no page, with a PT_PHDR header that comes first, or none and loaded at 0. False: if a PT_PHDR header is not the first the load address is wrong by its place in the table; if two segments share a page almost the whole address space is asked for; without a PT_PHDR header the load address is taken to be 0."
  },
  {
   "property": "C54",
   "status": "partial",
   "theorems": [
    "wrap_sites_exact",
    "wrap_sizes_partial",
    "wrap_completes",
    "wrap_jump_refuted",
    "wrap_nested_size_refuted",
    "wrap_stale_size_refuted",
    "wrap_resize_refuted",
    "wrap_size_wraps_refuted",
    "wrap_free_refuted"
   ],
   "note": "Proved for every program whose jumps do not leave an allocation function: sites, order, and that nothing carries over; sizes too unless a function is declared to leave its size set. False: a jump out of an allocation function leaves later allocations attributed to it; a small object made inside another allocation function has that function's size; a size left set is taken for the next resized chunk; a resized chunk's size is not the size asked for; sizes of small objects are cut to 32 bits; freeing by a function whose allocation function was never used aborts."
  },
  {
   "property": "C55",
   "status": "partial",
   "theorems": [
    "trap_call_exact_partial",
    "trap_history_exact_partial",
    "own_mmap_exact_partial",
    "own_mmap_big",
    "trap_binding_shares",
    "own_places_apart",
    "trap_mremap_forced",
    "trap_mremap_refuted",
    "trap_mprotect_refuted",
    "trap_anonymous_fd_refuted",
    "trap_no_fd_refuted",
    "trap_big_refuted",
    "trap_early_refuted",
    "own_places_page_refuted",
    "own_mmap_errno_refuted",
    "open_write_refuted"
   ],
   "note": "Proved for every history of mmap, munmap, brk, open, unrelated calls and mremap calls that move a mapping to a given free place, by code outside the library, with failures and every kernel answer, where the mapping layer has room (C09, C10, C13): calls and answers pass unchanged and queries give the kernel's view. The library's chosen places never overlap. False: mremap without a fixed address is always redirected to the library's area, and fails without MREMAP_MAYMOVE; mprotect is not followed; anonymous mappings with a descriptor are taken for file mappings or abort; mappings above the index's limit abort; before the library's own file is recorded every caller is taken for the library; chosen places can share a page; the library's own mmap always fails with EPERM; opening for writing during dlbind uses access mode 3."
  },
  {
   "property": "C56",
   "status": "partial",
   "theorems": [
    "meta_names_exact_partial",
    "meta_name_path_fits",
    "meta_names_distinct",
    "meta_find_exact_partial",
    "meta_load_exact_partial",
    "meta_name_long_refuted",
    "meta_base_long_refuted",
    "meta_no_stat_refuted",
    "meta_short_name_refuted",
    "meta_shared_refuted",
    "meta_under_base_refuted"
   ],
   "note": "Proved for every file system and every build id, with META_BASE up to 4035 bytes and paths that fit, if the loaded file itself can be examined, its name has at least eight bytes, and the metadata is not already loaded. False otherwise: long paths are cut and shared; a META_BASE of 4044 bytes or more overruns a buffer; a deleted file is compared with an uninitialised time; names under eight bytes are read out of bounds; metadata already loaded is used without a reference; files under META_BASE are not recognised as metadata by that."
  },
  {
   "property": "C57",
   "status": "partial",
   "theorems": [
    "typename_lookup_exact_partial",
    "typename_exact",
    "typename_unnamed",
    "typename_code_refuted",
    "typename_zero_refuted",
    "typename_long_refuted",
    "typename_short_refuted"
   ],
   "note": "The names reported are proved right for every symbol of the tools' form. Lookup is proved for every symbol without a code or whose code begins with a letter. False for codes that begin with a decimal digit, which are read as a header length: another type is found, an assertion fails, or the string is overrun. Overlong symbols and symbols not of the tools' form also go wrong."
  },
  {
   "property": "C58",
   "status": "partial",
   "theorems": [
    "iterate_types_exact_partial",
    "types_of_unique",
    "iterate_unnamed_refuted",
    "iterate_zero_refuted"
   ],
   "note": "Proved for every callback and table with a load address that is not 0, in which every object defined has a name and no type's name lies within the first bytes. False: an unnamed object makes the behaviour undefined; a library at address 0 is skipped."
  },
  {
   "property": "C59",
   "status": "partial",
   "theorems": [
    "detour_exact",
    "instrument_exact",
    "as_built_refuted",
    "as_built_table_refuted",
    "as_built_nothing",
    "far_detour_refuted",
    "far_trampoline_refuted",
    "twice_listed_refuted",
    "short_function_refuted"
   ],
   "note": "Proved for every decoder that finds the instructions that are there, every memory and every list of functions apart from each other, where replacements, buffer and what displaced instructions refer to are within two gigabytes. Instructions displaced are compared by their bytes and by what their relocatable fields refer to; jumps into the displaced bytes are outside that. False: as the code is built the decoder is not called, so that the first function found has undefined results; things further apart than two gigabytes; a function listed twice ends in the replacement calling itself; functions of less than five bytes."
  },
  {
   "property": "C60",
   "status": "partial",
   "theorems": [
    "dl_state_exact",
    "fix_path_exact",
    "fix_path_refuses",
    "dl_state_page_refuted"
   ],
   "note": "Proved for every memory, path and program header table with one header of each kind, and every hook whose first twelve bytes are in one page. False: for a hook across two pages the second page is not made writable."
  },
  {
   "property": "C61",
   "status": "partial",
   "theorems": [
    "gather_calls_exact",
    "gather_merge_exact",
    "gather_table_exact",
    "gather_runtime_exact",
    "gather_untyped_refuted",
    "gather_same_line_refuted",
    "gather_long_file_refuted",
    "gather_locale_refuted",
    "gather_constructor_refuted",
    "gather_last_call_refuted"
   ],
   "note": "Proved for every disassembly in objdump's form in which each call is followed by the instruction it returns to, with fewer than 999999 lines per file, any source text that does not look like an instruction or heading, and sorting by bytes. False: a call on lines without a site is told the type of the call before it; two allocations on a line both get the first type; lines from 999999 on; sources sorted in another locale; a first source line ending in '():' loses file and line; the last call of a section has the wrong return address or is lost."
  },
  {
   "property": "C62",
   "status": "partial",
   "theorems": [
    "walk_exact",
    "walk_ascends",
    "walk_ends",
    "unwind_exact",
    "stack_local_found",
    "walk_outermost_refuted",
    "walk_large_frame_refuted",
    "walk_odd_refuted",
    "walk_beyond_refuted"
   ],
   "note": "Proved for every stack of frames with frame pointers and less than 64 KB each, and, that it goes upward and ends, for every memory. False: the outermost frame, which has no base pointer, is passed its callee's; a frame of 64 KB or more ends the walk, silently; values other than frame pointers in that register near the stack pointer abort a debugging build, or are read from beyond the stack."
  },
  {
   "property": "C63",
   "status": "partial",
   "theorems": [
    "query_dispatch",
    "query_agree_partial",
    "query_record_exact",
    "query_mapping_site_partial",
    "query_brk_site",
    "query_file_site_partial",
    "query_nothing",
    "query_stack_grown",
    "query_heap_grown_partial",
    "query_section_search",
    "query_specific_exact",
    "query_file_site_refuted",
    "query_inner_refuted",
    "query_private_heap_refuted",
    "query_ldso_type_refuted",
    "query_stack_own_refuted",
    "query_mapping_site_refuted",
    "query_twice_refuted",
    "query_twice_page_refuted"
   ],
   "note": "Proved for every reachable index and any other allocators that give one account whatever they are asked for; the six allocators written out are shown to do so where they are asked. False: the site of an address in a file but in no segment of it is read from the wrong structure; the innermost type of plain mapped memory follows a null pointer; every query about the library's own heap calls a null function; the type of an untyped chunk of the dynamic linker's heap is an uninitialised variable; the site of mapped memory is that of the first page of the run; memory the C library got by moving the break is denied when first asked about and recognised when asked again. The inline caches (LIBALLOCS_INLCACHE) are not modelled."
  },
  {
   "property": "C64",
   "status": "partial",
   "theorems": [
    "pheap_sbrk_exact",
    "pheap_sbrk_within",
    "pheap_bitmap_room",
    "pheap_call_partial",
    "pheap_exact_partial",
    "pheap_realloc_refuted",
    "pheap_posix_refuted",
    "pheap_free_null_refuted",
    "pheap_realloc_size_refuted",
    "pheap_usable_refuted"
   ],
   "note": "Proved for every history without failing reallocations, posix_memalign and freeing of null. False for those: a failing realloc leaves a live chunk unmarked; posix_memalign marks on failure and not on success; free(NULL) aborts or reads through null; realloc to nearly 2^64 bytes asks for a tiny chunk; the usable size can be less than what was asked for. The underlying dlmalloc and the bitmap routines (librunt) are outside the repository and enter as their contracts."
  },
  {
   "property": "C65",
   "status": "partial",
   "theorems": [
    "rtu_builtin_partial",
    "rtu_array_refuted",
    "rtu_auxv_refuted",
    "rtu_intptr_refuted",
    "rtu_ultimate_refuted"
   ],
   "note": "Proved for every program whose integer and character types have room for a counterpart. False: the character array is entered under another name than it is looked up by, so setting up again makes a second; both members of the auxiliary-vector entry are at offset 0; nothing is made for intptr_t; a new pointer type has no room for its ultimate pointee, which is read beyond its end when the pointer type to it is asked for."
  },
  {
   "property": "C66",
   "status": "partial",
   "theorems": [
    "start_once",
    "start_ends",
    "start_done",
    "start_order",
    "start_query_refuted",
    "start_overtaken_refuted"
   ],
   "note": "Once-only, termination and completion are proved for every sequence and every re-entry; the order for every sequence in which the mmap initialiser is the first that matters, and every re-entry of it and of the initialisers that stand alone. False: a query made while start-up begun by a query is under way fails the assertion, since the global initialiser answers -1 rather than 0; a query made during the first piece of work runs the set-up of the files before the mappings are read."
  },
  {
   "property": "C67",
   "status": "partial",
   "theorems": [
    "sig_trap_kept",
    "sig_others",
    "sig_errno",
    "sig_refused",
    "decint_exact",
    "decimal_unique",
    "position_exact",
    "position_kept",
    "sig_success_refuted",
    "sig_other_door_refuted",
    "sig_blocked_refuted",
    "decint_negative_refuted"
   ],
   "note": "Proved for all histories of signal and sigaction. False: sigaction answers success for a SIGILL handler that it has not installed; bsd_signal and its like are not wrapped and replace the handler; a program that blocks SIGILL is killed by its next trapped system call; negative numbers are not printed as digits."
  },
  {
   "property": "C68",
   "status": "partial",
   "theorems": [
    "retype_query_partial",
    "retype_set_partial",
    "retype_fresh_partial",
    "retype_add_partial",
    "retype_large_refuted",
    "retype_large_query_refuted",
    "retype_low_refuted",
    "retype_add_refuted"
   ],
   "note": "Proved over a byte-addressed memory for chunks up to 128kB and type descriptors at or above 2^35. False: setting a large object's type writes one word and reads another, so debug builds abort and release builds ignore the change; in release builds merely asking about a large object can overwrite the next object's bytes; descriptors below 2^35 cannot be set; adding a type of size zero divides by zero, and adding a type where the allocator cannot set one calls a null pointer. The object cache is the subject of C18 to C21; lifetime policies are not in this history."
  },
  {
   "property": "C69",
   "status": "partial",
   "theorems": [
    "conc_atomic_partial",
    "conc_no_deadlock_partial",
    "conc_finite",
    "conc_table_partial",
    "conc_quiet",
    "conc_readers",
    "conc_create_refuted",
    "conc_delete_refuted",
    "conc_reuse_refuted",
    "conc_top_level_refuted",
    "conc_adjust_refuted"
   ],
   "note": "Proved for the calls that hold the lock throughout, and for all lookups while no thread writes. False for those that do not: the leaf lookup reads sibling lists without the lock and misses unrelated allocations while one is created or deleted beside them, or answers with the allocator of another mapping; the top-level lookup climbs after unlocking; setting a mapping's end compares with the old end before locking. Accesses are sequentially consistent; the stores to the page index of one call are one access."
  },
  {
   "property": "C70",
   "status": "partial",
   "theorems": [
    "hconc_index_partial",
    "hconc_lookup_partial",
    "hconc_first",
    "hconc_grow_refuted",
    "hconc_first_lost_refuted",
    "hconc_first_abort_refuted",
    "hconc_unset_refuted"
   ],
   "note": "Proved for threads which allocate and free once the arena has its info (one allocation made alone gives it one), with the bitmap growing as needed; and for lookups of a chunk that stays allocated beside allocations and frees that do not make the bitmap grow, although lookups take no lock. False otherwise: a lookup beside an allocation that makes the bitmap grow reads freed memory; when two threads make an arena's first allocations one of the chunks may be lost, a debug build may abort, and a thread may use the info before it is filled in. Each thread frees only chunks that are live however the threads interleave. Chunks are small ones (not promoted to big allocations); accesses are sequentially consistent; the private realloc always moves the bitmap, in one access."
  },
  {
   "property": "C71",
   "status": "partial",
   "theorems": [
    "early_exact",
    "early_found_partial",
    "early_plain",
    "early_second_page_refuted",
    "early_mid_page_refuted"
   ],
   "note": "Proved exactly when the records are brought up to date: when the recorded heap reaches to the last byte before the address's page, and otherwise nothing changes and the answer is 'none'; in the first case every address in the first page gained is found. False as stated: the search goes back one page only (its bound is tested with an unsigned subtraction that wraps), and it tries the last byte of that page, so nothing is found two pages on, or when the break was within a page. The case of no records at all (mmap allocator not yet initialised) is not modelled here."
  },
  {
   "property": "C72",
   "status": "partial",
   "theorems": [
    "lock_no_deadlock_partial",
    "lock_released",
    "lock_message_refuted"
   ],
   "note": "Proved when messages go to stderr. False when LIBALLOCS_ERR is set: the warning printed when a lookup extends the stack's record is printed with the table locked and opens a file, which allocates; a thread which is meanwhile allocating from the same arena holds the arena's lock and waits for the table's. Only locking is modelled, all other behaviour being an arbitrary choice; abort(), fork() and the locks of the program's own malloc are left out."
  },
  {
   "property": "C73",
   "status": "partial",
   "theorems": [
    "err_stderr",
    "err_one_partial",
    "err_longest",
    "err_loops",
    "err_exhausted",
    "err_lost_refuted"
   ],
   "note": "Proved when LIBALLOCS_ERR is unset, and for one message to the file. Otherwise false: the file is opened anew and truncated at every message, so that at exit it is no longer than the longest message and begins with the first; and if it cannot be opened, or no more files can be, the function that reports that calls itself without end. Messages are taken to fit a stream's buffer, and streams to be flushed at exit, last opened first."
  },
  {
   "property": "C74",
   "status": "partial",
   "theorems": [
    "pconc_held_serial",
    "pconc_held_apart",
    "pconc_within",
    "pconc_own_word",
    "pconc_twice_refuted",
    "pconc_beyond_refuted",
    "pconc_mark_refuted"
   ],
   "note": "Proved if whoever uses the heap holds one and the same lock. Without that, proved for every schedule: the break stays in the heap's range, what is given begins in it, and a word of marks changed by one thread only is as that thread left it. The code's callers hold different locks or none, and then the property is false: the same memory is given twice, memory beyond the heap's end is given, and marks are lost or come back. The allocator built on this (dlmalloc, also without locks) is not in the repository and is not modelled. Accesses are taken to be sequentially consistent."
  },
  {
   "property": "C75",
   "status": "partial",
   "theorems": [
    "esym_table_partial",
    "esym_walk_partial",
    "esym_never_loaded",
    "esym_asked",
    "esym_query_partial",
    "esym_null_refuted",
    "esym_number_refuted",
    "esym_quotes_refuted",
    "esym_compile_refuted"
   ],
   "note": "Proved for names without quotes, backslashes and line ends: the table is exact, and the walk over the dynamic linker's extra symbols visits them in order until told to stop. The rest is false of the code. Proved: the library never finds the table, since it asks for a symbol of another name, and a query then reads a null table. Were the name right, statics are numbered one too high, so the wrong symbol is used; esym_query_partial proves queries right if it were asked for by name and one more symbol came first. Names with quotes make later names wrong, or the file not compile."
  },
  {
   "property": "C76",
   "status": "partial",
   "theorems": [
    "cconc_in_bounds",
    "cconc_fields",
    "cconc_held_lru",
    "cconc_torn_refuted",
    "cconc_stale_refuted",
    "cconc_endless_refuted",
    "cconc_abort_refuted"
   ],
   "note": "Proved for every schedule of the code as it is: no access is outside the cache, and every field of an answer is one that some fill stored or that of an empty entry. Proved if each call held one lock: answers are those of the least-recently-used cache of C18-C20 under some order of the calls. The code has no lock and shares one cache between threads, and the rest is false: an answer is mixed from two ranges and does not contain the address; what was invalidated is answered again; two lookups leave a list that a third goes round for ever; a fill aborts. The DEBUG sanity checks are left out. Accesses are taken to be sequentially consistent."
  },
  {
   "property": "C77",
   "status": "partial",
   "theorems": [
    "infer_type_partial",
    "infer_site_partial",
    "infer_plain",
    "infer_whole_number",
    "infer_taken",
    "infer_composite_partial",
    "infer_less_last",
    "infer_offset_partial",
    "infer_offset_found",
    "infer_reassigned_refuted",
    "infer_number_refuted",
    "infer_part_refuted",
    "infer_half_refuted",
    "infer_minus_refuted",
    "infer_nested_refuted"
   ],
   "note": "Proved for functions each of whose locals holds sizes of one type or plain numbers, none being computed from itself: the call is recorded with that type, and on every path the size is a multiple of its size. Proved of every function: a recorded type is one whose size the function takes. False in general: the analysis ignores order, so a call is given the type of a later assignment, or of an earlier one that has been overwritten by a number; it confuses the fields of a struct; half a T is recorded as T's; n*sizeof(T)-sizeof(T) is recorded as raw bytes; and an offset of the last field of an inner struct is taken for one of the outer struct's. Sizes are unbounded integers (no wrapping)."
  },
  {
   "property": "C78",
   "status": "partial",
   "theorems": [
    "infer_ends_partial",
    "infer_ends_steady_partial",
    "infer_endless_refuted"
   ],
   "note": "Proved, with a bound on the number of passes, if no local is computed from itself, and also, whatever the dependencies, if locals hold sizes of one type each and none is an array type. False in general: a loop exchanging two locals, each multiplied by the size of a different type, makes the passes alternate for ever, which is proved for every number of passes. The limit of a hundred parts does not prevent this."
  },
  {
   "property": "C79",
   "status": "partial",
   "theorems": [
    "infer_direct",
    "infer_returned",
    "infer_site_partial",
    "infer_indirect_refuted",
    "infer_bare_stops",
    "infer_bare_refuted"
   ],
   "note": "Proved for direct calls and signatures of the form name(args)rest. False of calls through pointers: only the number of arguments is compared, so any one-argument call mentioning a size is listed, even of a function returning nothing. A signature without brackets is not passed over: it raises an exception which ends the compilation at the first call reaching it, proved for all such signatures."
  },
  {
   "property": "C80",
   "status": "partial",
   "theorems": [
    "sname_ident_inj",
    "sname_ident_chars",
    "sname_backslash_refuted",
    "sname_inj_partial",
    "sname_alike",
    "sname_runtime_array",
    "sname_runtime_unbounded_refuted",
    "sname_reserved_refuted",
    "sname_inside_refuted",
    "sname_tags_refuted"
   ],
   "note": "Proved for types whose tags have no two underscores together, save at the start and not then before a third, A, F or P: types of one symbol are equal up to the width and form of arithmetic types, unknown bounds against zero, unknown arguments against none, and the kind of a tag; and types so alike do share a symbol, so these confusions are real. False otherwise: struct __PTR_void has the symbol of void *, and a tag with __ARG1_ inside, which C does not reserve, makes a function of one argument look like one of two. Struct S and enum S share a symbol. The run-time symbol of an array of known length is the compiler's; that of an array of unknown length is no type's symbol. Escaping is injective on all strings, and gives identifiers (with dollars) except that backslashes are let through."
  },
  {
   "property": "C81",
   "status": "partial",
   "theorems": [
    "mona_same_partial",
    "mona_untouched",
    "mona_volatile_refuted",
    "mona_aligned_refuted",
    "mona_named_refuted"
   ],
   "note": "Proved by simulation for functions that give alloca no size read from a volatile variable, do not use __builtin_alloca_with_align and have no local of the counter's name; also whether or not the first zeroing of the counter survives the visitor. False otherwise: a volatile size is read twice, so the block may be smaller than what is notified; the other built-in form is never reported; a local of the counter's name is taken for it and never cleaned up. Functions without alloca are proved unchanged. Gotos and longjmp are not modelled; what the library does on being notified is C31."
  },
  {
   "property": "C82",
   "status": "partial",
   "theorems": [
    "trapw_same_partial",
    "trapw_erased",
    "trapw_untouched",
    "trapw_value_kept",
    "trapw_release_refuted",
    "trapw_local_refuted",
    "trapw_union_refuted"
   ],
   "note": "Proved by simulation where notifications leave memory alone, with 'exactly once' for types that have no union outside arrays. False otherwise: a notification may release the object that the store unlinks, and the store reads its source again afterwards, so head = head->next stores what is left in the released node; stores to address-taken locals by name are not told of though stores to them through a pointer are; a union is told of once for each pointer member, and when it holds a number. Computed values and call results are proved to be stored as told whatever notifications do. Functions storing no pointers outside locals are proved unchanged. What the library does on being told is C45 and C46. Volatile accesses, gotos and partial-word layouts are not modelled."
  },
  {
   "property": "C83",
   "status": "partial",
   "theorems": [
    "cwrap_compiles_partial",
    "cwrap_depend_refuted",
    "cwrap_language_refuted",
    "cwrap_separate_refuted",
    "cwrap_repeated_refuted",
    "cwrap_preprocess_refuted",
    "cwrap_marker_refuted"
   ],
   "note": "Proved for every command line made of named sources, one-word flags, place-bound include options, -MT, -MQ and -MF with one value each, -I, linker words, -o and -c. Directories given with -I are searched in the order given; the order of other flags is not stated. False otherwise: the word after -MD, -MMD, -M, -MM, -MG or -MP is dropped, even when it is -c or a source; -x LANGUAGE is replaced by the language the file's name suggests, or stops the wrapper when it suggests none; the value of -D or -U in a word of its own is moved; only the last of several -MT is kept and -DX -UX -DX leaves X undefined; with -E the options that set predefined macros are dropped; -- always stops the wrapper. Compiling for a link is not modelled."
  }
 ]
}
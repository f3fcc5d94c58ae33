{
 "claims": [
  {
   "property": "C01",
   "status": "proved",
   "theorems": [
    "C01_add_node_fresh"
   ],
   "note": ""
  },
  {
   "property": "C02",
   "status": "proved",
   "theorems": [
    "C02_add_node_iff_room",
    "C02_no_other_failure"
   ],
   "note": ""
  },
  {
   "property": "C03",
   "status": "proved",
   "theorems": [
    "C03_size_counts"
   ],
   "note": ""
  },
  {
   "property": "C04",
   "status": "proved",
   "theorems": [
    "C04_add_node_local",
    "C04_remove_node_local",
    "C04_remove_sentinel"
   ],
   "note": ""
  },
  {
   "property": "C05",
   "status": "proved",
   "theorems": [
    "C05_alloc_zeroed",
    "C05_dq_zeroed",
    "C05_ht_zeroed",
    "C05_rb_zeroed",
    "C05_av_zeroed",
    "C05_cb_zeroed",
    "C05_alloc_again",
    "C05_dq_again",
    "C05_ht_again",
    "C05_rb_again",
    "C05_av_again",
    "C05_cb_again",
    "C05_dq_default",
    "C05_ht_default",
    "C05_rb_default",
    "C05_av_default",
    "C05_cb_default"
   ],
   "note": "for a type whose Default is not the zero value the unused slots differ; C05_*_default shows this is not observable"
  },
  {
   "property": "C06",
   "status": "proved",
   "theorems": [
    "C06_connect",
    "C06_disconnect",
    "C06_clear_register",
    "C06_set_register",
    "C06_get_register_sentinel"
   ],
   "note": ""
  },
  {
   "property": "C07",
   "status": "proved",
   "theorems": [
    "C07_deque_is_sequence"
   ],
   "note": ""
  },
  {
   "property": "C08",
   "status": "proved",
   "theorems": [
    "C08_push_full",
    "C08_push_room"
   ],
   "note": ""
  },
  {
   "property": "C09",
   "status": "proved",
   "theorems": [
    "C09_deque_iter"
   ],
   "note": ""
  },
  {
   "property": "C10",
   "status": "proved",
   "theorems": [
    "C10_deque_iter_mut"
   ],
   "note": ""
  },
  {
   "property": "C11",
   "status": "proved",
   "theorems": [
    "C11_sequence_number"
   ],
   "note": ""
  },
  {
   "property": "C12",
   "status": "proved",
   "theorems": [
    "C12_links",
    "C12_head_tail_empty",
    "C12_remove_any"
   ],
   "note": ""
  },
  {
   "property": "C13",
   "status": "proved",
   "theorems": [
    "C13_ht_is_map",
    "C13_ht_contents_unique"
   ],
   "note": ""
  },
  {
   "property": "C14",
   "status": "proved",
   "theorems": [
    "C14_ht_insert_full_new",
    "C14_ht_insert_full_present"
   ],
   "note": ""
  },
  {
   "property": "C15",
   "status": "proved",
   "theorems": [
    "C15_ht_iter"
   ],
   "note": ""
  },
  {
   "property": "C16",
   "status": "proved",
   "theorems": [
    "C16_ht_rev_empty",
    "C16_ht_rev_refuted"
   ],
   "note": "the claim is false of the code: C16_ht_rev_refuted (next_back always None); C16_ht_rev_empty says what the code does on every table"
  },
  {
   "property": "C17",
   "status": "proved",
   "theorems": [
    "C17_ht_get_mut"
   ],
   "note": ""
  },
  {
   "property": "C18",
   "status": "proved",
   "theorems": [
    "C18_ht_addresses"
   ],
   "note": ""
  },
  {
   "property": "C19",
   "status": "proved",
   "theorems": [
    "C19_rb_is_map",
    "C19_rb_runs"
   ],
   "note": ""
  },
  {
   "property": "C20",
   "status": "proved",
   "theorems": [
    "C20_rb_iter"
   ],
   "note": ""
  },
  {
   "property": "C21",
   "status": "proved",
   "theorems": [
    "C21_rb_valid"
   ],
   "note": ""
  },
  {
   "property": "C22",
   "status": "proved",
   "theorems": [
    "C22_rb_depth",
    "C22_rb_search_steps"
   ],
   "note": ""
  },
  {
   "property": "C23",
   "status": "proved",
   "theorems": [
    "C23_rb_min",
    "C23_rb_max"
   ],
   "note": ""
  },
  {
   "property": "C24",
   "status": "proved",
   "theorems": [
    "C24_rb_addresses"
   ],
   "note": ""
  },
  {
   "property": "C25",
   "status": "proved",
   "theorems": [
    "C25_rb_remove_root"
   ],
   "note": ""
  },
  {
   "property": "C26",
   "status": "proved",
   "theorems": [
    "C26_av_iter_mut",
    "C26_cb_iter_mut",
    "C26_ht_iter_mut",
    "C26_rb_iter_mut"
   ],
   "note": ""
  },
  {
   "property": "C27",
   "status": "proved",
   "theorems": [
    "C27_av_is_map"
   ],
   "note": ""
  },
  {
   "property": "C28",
   "status": "proved",
   "theorems": [
    "C28_av_iter"
   ],
   "note": ""
  },
  {
   "property": "C29",
   "status": "proved",
   "theorems": [
    "C29_av_balanced"
   ],
   "note": ""
  },
  {
   "property": "C30",
   "status": "proved",
   "theorems": [
    "C30_av_depth",
    "C30_av_heights",
    "C30_av_search_steps"
   ],
   "note": ""
  },
  {
   "property": "C31",
   "status": "proved",
   "theorems": [
    "C31_av_min",
    "C31_av_max"
   ],
   "note": ""
  },
  {
   "property": "C32",
   "status": "proved",
   "theorems": [
    "C32_av_addresses"
   ],
   "note": ""
  },
  {
   "property": "C33",
   "status": "proved",
   "theorems": [
    "C33_cb_is_map"
   ],
   "note": ""
  },
  {
   "property": "C34",
   "status": "proved",
   "theorems": [
    "C34_cb_iter"
   ],
   "note": ""
  },
  {
   "property": "C35",
   "status": "proved",
   "theorems": [
    "C35_av_update",
    "C35_cb_update",
    "C35_cb_refuted",
    "C35_ht_update",
    "C35_rb_update"
   ],
   "note": "proved for RedBlackTree, AVLTree, HashTable; false of the code for Critbit: C35_cb_refuted (insert of a present key into a full Critbit returns None); C35_cb_update is what holds below capacity, C40_cb_full what happens at capacity"
  },
  {
   "property": "C36",
   "status": "proved",
   "theorems": [
    "C36_cb_min",
    "C36_cb_max"
   ],
   "note": ""
  },
  {
   "property": "C37",
   "status": "proved",
   "theorems": [
    "C37_cb_insert_addr",
    "C37_cb_addr_same",
    "C37_cb_value_slot",
    "C37_cb_stable_refuted"
   ],
   "note": "the claim is false of the code: C37_cb_stable_refuted (insert/remove of another key moves the node); what holds: the returned index is the address right after insert, calls leaving the key set unchanged move nothing, and values stay in their leaf-pool slot"
  },
  {
   "property": "C38",
   "status": "proved",
   "theorems": [
    "C38_cb_addr",
    "C38_cb_addr_empty",
    "C38_cb_steps",
    "C38_cb_empty_refuted"
   ],
   "note": "proved for non-empty trees; false of the code for empty trees: C38_cb_addr_empty / C38_cb_empty_refuted (get_addr panics)"
  },
  {
   "property": "C39",
   "status": "proved",
   "theorems": [
    "C39_cb_nodes",
    "C39_cb_new"
   ],
   "note": ""
  },
  {
   "property": "C40",
   "status": "proved",
   "theorems": [
    "C40_av_full",
    "C40_av_capacity0_refuted",
    "C40_cb_full",
    "C40_cb_capacity0_refuted",
    "C40_ht_full",
    "C40_rb_full",
    "C40_rb_capacity0_refuted"
   ],
   "note": "HashTable: all capacities; RedBlackTree, AVLTree, Critbit: proved for capacity > 0, false of the code for capacity 0 (insert panics): C40_*_capacity0_refuted; C71 has all calls on containers of capacity 0"
  },
  {
   "property": "C41",
   "status": "proved",
   "theorems": [
    "C41_alloc_reload",
    "C41_dq_reload",
    "C41_ht_reload",
    "C41_rb_reload",
    "C41_av_reload",
    "C41_cb_reload",
    "C41_dq_view",
    "C41_ht_view",
    "C41_rb_view",
    "C41_av_view",
    "C41_cb_view"
   ],
   "note": "for the allocator and all five containers; every call may find the bytes at another (aligned) address"
  },
  {
   "property": "C42",
   "status": "proved",
   "theorems": [
    "C42_load_long",
    "C42_load_short",
    "C42_short_refuted"
   ],
   "note": "the first half of the claim is false of the code: a short slice panics (C42_short_refuted, C42_load_short); the second half is C42_load_long"
  },
  {
   "property": "C43",
   "status": "proved",
   "theorems": [
    "C43_dq_zeroed",
    "C43_ht_zeroed",
    "C43_rb_zeroed",
    "C43_av_zeroed",
    "C43_cb_zeroed",
    "C43_dq_again",
    "C43_ht_again",
    "C43_rb_again",
    "C43_av_again",
    "C43_cb_again",
    "C43_dq_unfit",
    "C43_ht_unfit",
    "C43_rb_unfit",
    "C43_av_unfit",
    "C43_cb_unfit",
    "C43_dq_exact",
    "C43_ht_exact",
    "C43_rb_exact",
    "C43_av_exact",
    "C43_cb_exact"
   ],
   "note": "zeroed buffer, initialised buffer, too short or misaligned buffer, and for arbitrary contents exactly when it succeeds (C43_*_exact), for all five containers"
  },
  {
   "property": "C44",
   "status": "proved",
   "theorems": [
    "C44_av_index",
    "C44_cb_index",
    "C44_ht_index",
    "C44_rb_index"
   ],
   "note": ""
  },
  {
   "property": "C45",
   "status": "proved",
   "theorems": [
    "C45_rb_av",
    "C45_rb_cb",
    "C45_cb_full_refuted"
   ],
   "note": "Critbit: below capacity as stated; C45_cb_full_refuted shows the condition is needed"
  },
  {
   "property": "C46",
   "status": "proved",
   "theorems": [
    "C46_is_valid_refuted",
    "C46_is_valid_exact",
    "C46_is_valid_complete",
    "C46_is_valid_sound_full"
   ],
   "note": "the claim is false of the code: C46_is_valid_refuted gives a tree accepted by is_valid_red_black_tree that is not a red-black tree; C46_is_valid_exact says for every store exactly what it decides (root not red, no red node with a red child, equal black counts on the paths to childless nodes), C46_is_valid_complete that every red-black tree is accepted, C46_is_valid_sound_full that it is right on trees in which no node has exactly one child"
  },
  {
   "property": "C47",
   "status": "proved",
   "theorems": [
    "C47_av_incomparable_refuted"
   ],
   "note": "the claim is false of the code: C47_av_incomparable_refuted shows a NaN-like key being taken for another key"
  },
  {
   "property": "C48",
   "status": "proved",
   "theorems": [
    "C48_av_lookups",
    "C48_cb_lookups",
    "C48_cb_empty_refuted",
    "C48_ht_lookups",
    "C48_rb_lookups"
   ],
   "note": "proved for RedBlackTree, AVLTree, HashTable and non-empty Critbit (with C38_cb_addr); false of the code for get_addr on an empty Critbit: C48_cb_empty_refuted"
  },
  {
   "property": "C49",
   "status": "proved",
   "theorems": [
    "C49_alloc_assert",
    "C49_rb_assert"
   ],
   "note": ""
  },
  {
   "property": "C50",
   "status": "proved",
   "theorems": [
    "C50_dq_refuted",
    "C50_rb_refuted",
    "C50_ht_refuted",
    "C50_av_refuted",
    "C50_align16_refuted",
    "C50_cb_refuted",
    "C50_dq_tight",
    "C50_rb_tight",
    "C50_ht_tight",
    "C50_av_tight",
    "C50_cb_tight"
   ],
   "note": "the claim is false of the code for each container: C50_*_refuted give accepted type parameters with padding bytes; C50_*_tight give conditions under which it holds"
  },
  {
   "property": "C51",
   "status": "proved",
   "theorems": [
    "C51_alloc_step",
    "C51_dq_step",
    "C51_ht_step",
    "C51_rb_step",
    "C51_av_step",
    "C51_cb_step",
    "C51_alloc",
    "C51_dq",
    "C51_ht",
    "C51_rb",
    "C51_av",
    "C51_cb",
    "C51_dq_seqno_refuted"
   ],
   "note": ""
  },
  {
   "property": "C52",
   "status": "proved",
   "theorems": [
    "C52_text",
    "C52_lines",
    "C52_reachable"
   ],
   "note": ""
  },
  {
   "property": "C53",
   "status": "proved",
   "theorems": [
    "C53_ht_order",
    "C53_ht_iter_order"
   ],
   "note": ""
  },
  {
   "property": "C54",
   "status": "proved",
   "theorems": [
    "C54_rb_any_order",
    "C54_av_any_order",
    "C54_rb_shape",
    "C54_av_shape",
    "C54_rb_safe",
    "C54_av_safe",
    "C54_pairs_kept",
    "C54_lawful"
   ],
   "note": ""
  },
  {
   "property": "C55",
   "status": "proved",
   "theorems": [
    "C55_rb_fuzz",
    "C55_av_fuzz",
    "C55_ht_fuzz",
    "C55_cb_fuzz",
    "C55_cb_fuzz_refuted"
   ],
   "note": ""
  },
  {
   "property": "C56",
   "status": "proved",
   "theorems": [
    "C56_al_in_bounds",
    "C56_dq_in_bounds",
    "C56_ht_in_bounds",
    "C56_rb_in_bounds",
    "C56_av_in_bounds",
    "C56_cb_in_bounds",
    "C56_cb_iter_mut_in_bounds",
    "C56_cb_iter_mut_refuted",
    "C56_dq_alias_refuted",
    "C56_ht_alias_refuted",
    "C56_rb_alias_refuted",
    "C56_av_alias_refuted",
    "C56_cb_alias_refuted",
    "C56_rb_hang_refuted",
    "C56_av_hang_refuted",
    "C56_ht_hang_refuted",
    "C56_cb_hang_refuted",
    "C56_dq_endless_refuted"
   ],
   "note": ""
  },
  {
   "property": "C57",
   "status": "proved",
   "theorems": [
    "C57_rb_navigation",
    "C57_rb_node_mut",
    "C57_ht_navigation",
    "C57_av_node_mut",
    "C57_cb_leaf_mut"
   ],
   "note": ""
  },
  {
   "property": "C58",
   "status": "proved",
   "theorems": [
    "C58_rb_rounds",
    "C58_av_rounds",
    "C58_cb_rounds",
    "C58_ht_rounds"
   ],
   "note": ""
  },
  {
   "property": "C59",
   "status": "proved",
   "theorems": [
    "C59_rb_call",
    "C59_rb_history",
    "C59_av_call",
    "C59_av_history",
    "C59_ht_call",
    "C59_ht_history"
   ],
   "note": ""
  },
  {
   "property": "C60",
   "status": "proved",
   "theorems": [
    "C60_cb_shape",
    "C60_cb_history_independent",
    "C60_rb_shape_refuted",
    "C60_av_shape_refuted",
    "C60_cb_slots_refuted"
   ],
   "note": ""
  },
  {
   "property": "C61",
   "status": "proved",
   "theorems": [
    "C61_rb_slots",
    "C61_av_slots",
    "C61_ht_slots",
    "C61_cb_slots",
    "C61_dq_slots",
    "C61_dq_remove_slot",
    "C61_rb_av_same_slots"
   ],
   "note": ""
  },
  {
   "property": "C62",
   "status": "proved",
   "theorems": [
    "C62_rb_subset",
    "C62_av_subset",
    "C62_ht_subset"
   ],
   "note": ""
  },
  {
   "property": "C63",
   "status": "proved",
   "theorems": [
    "C63_rb_simulate",
    "C63_av_simulate",
    "C63_cb_simulate",
    "C63_ht_simulate",
    "C63_rb_same_key",
    "C63_av_same_key",
    "C63_cb_same_key",
    "C63_ht_same_key",
    "C63_rb_unlucky",
    "C63_av_unlucky",
    "C63_cb_unlucky",
    "C63_simulate_passes_refuted"
   ],
   "note": ""
  },
  {
   "property": "C64",
   "status": "proved",
   "theorems": [
    "C64_dq_test",
    "C64_dq_test_small",
    "C64_dq_test_tiny",
    "C64_rb_delete",
    "C64_rb_delete_1024",
    "C64_rb_delete_2048"
   ],
   "note": ""
  },
  {
   "property": "C65",
   "status": "proved",
   "theorems": [
    "C65_al",
    "C65_dq",
    "C65_cb",
    "C65_rb",
    "C65_av",
    "C65_ht",
    "C65_rb_address",
    "C65_av_address",
    "C65_ht_address",
    "C65_cb_address",
    "C65_rb_numbers",
    "C65_av_numbers",
    "C65_ht_numbers",
    "C65_test_red_uncle",
    "C65_test_right_right",
    "C65_test_right_left",
    "C65_test_left_left",
    "C65_test_left_right",
    "C65_test_remove_root"
   ],
   "note": ""
  },
  {
   "property": "C66",
   "status": "proved",
   "theorems": [
    "C66_dq_held",
    "C66_ht_held",
    "C66_rb_held",
    "C66_av_held",
    "C66_cb_held"
   ],
   "note": ""
  },
  {
   "property": "C67",
   "status": "proved",
   "theorems": [
    "C67_dq_grow",
    "C67_rb_grow",
    "C67_rb_addresses",
    "C67_av_grow",
    "C67_av_addresses",
    "C67_ht_grow",
    "C67_ht_addresses",
    "C67_cb_grow",
    "C67_cb_slots",
    "C67_dq_realloc",
    "C67_ht_realloc",
    "C67_rb_realloc",
    "C67_av_realloc",
    "C67_cb_realloc",
    "C67_dq_dirty_refuted",
    "C67_cb_num_nodes_refuted"
   ],
   "note": ""
  },
  {
   "property": "C68",
   "status": "proved",
   "theorems": [
    "C68_le_bytes",
    "C68_alloc_wire",
    "C68_dq_wire",
    "C68_ht_wire",
    "C68_rb_wire",
    "C68_av_wire",
    "C68_cb_wire",
    "C68_dq_offset",
    "C68_ht_offset",
    "C68_rb_offset",
    "C68_av_offset",
    "C68_cb_offsets",
    "C68_rb_entries",
    "C68_rb_registers",
    "C68_av_entries",
    "C68_av_registers",
    "C68_ht_entries",
    "C68_ht_registers",
    "C68_dq_entries",
    "C68_dq_registers",
    "C68_cb_entries"
   ],
   "note": ""
  },
  {
   "property": "C69",
   "status": "proved",
   "theorems": [
    "C69_rb_insert",
    "C69_rb_lookup",
    "C69_rb_remove",
    "C69_av_insert",
    "C69_av_lookup",
    "C69_av_remove",
    "C69_ht_insert",
    "C69_ht_lookup",
    "C69_ht_remove",
    "C69_cb_insert",
    "C69_cb_lookup",
    "C69_cb_remove"
   ],
   "note": ""
  },
  {
   "property": "C70",
   "status": "proved",
   "theorems": [
    "C70_rb",
    "C70_av",
    "C70_ht",
    "C70_cb",
    "C70_rb_any_key_refuted",
    "C70_av_any_key_refuted",
    "C70_ht_any_key_refuted",
    "C70_cb_any_key_refuted"
   ],
   "note": ""
  },
  {
   "property": "C71",
   "status": "proved",
   "theorems": [
    "C71_rb_capacity0",
    "C71_av_capacity0",
    "C71_cb_capacity0",
    "C71_ht_no_buckets",
    "C71_cb_leak_refuted"
   ],
   "note": ""
  },
  {
   "property": "C72",
   "status": "proved",
   "theorems": [
    "C72_copies",
    "C72_rb_rotations",
    "C72_av_rotations"
   ],
   "note": ""
  },
  {
   "property": "C73",
   "status": "proved",
   "theorems": [
    "C73_copies",
    "C73_rb_room",
    "C73_av_room",
    "C73_cb_room",
    "C73_ht_rounds"
   ],
   "note": ""
  },
  {
   "property": "C74",
   "status": "proved",
   "theorems": [
    "C74_handed_out",
    "C74_exact",
    "C74_first_insert"
   ],
   "note": ""
  },
  {
   "property": "C75",
   "status": "proved",
   "theorems": [
    "C75_dq_push",
    "C75_dq_remove",
    "C75_ht",
    "C75_cb",
    "C75_rb",
    "C75_av",
    "C75_rb_bytes",
    "C75_av_bytes"
   ],
   "note": ""
  },
  {
   "property": "C76",
   "status": "proved",
   "theorems": [
    "C76_fuzz_action",
    "C76_fuzz_iter",
    "C76_fuzz_run",
    "C76_fuzz_refuted",
    "C76_simulate_asserts",
    "C76_simulate_ht_refuted",
    "C76_simulate_no_get"
   ],
   "note": ""
  },
  {
   "property": "C77",
   "status": "proved",
   "theorems": [
    "C77_dq_same_run",
    "C77_dq_sb_streaming",
    "C77_dq_sb_late",
    "C77_dq_sb_exact",
    "C77_dq_tb_reuse",
    "C77_dq_tb_phases",
    "C77_dq_tb_exact",
    "C77_ht_same_run",
    "C77_ht_sb_streaming",
    "C77_ht_sb_late",
    "C77_ht_sb_late_key",
    "C77_ht_sb_exact",
    "C77_ht_tb_reuse",
    "C77_ht_tb_phases",
    "C77_ht_tb_exact",
    "C77_rb_same_run",
    "C77_rb_sb_streaming",
    "C77_rb_sb_late",
    "C77_rb_sb_late_key",
    "C77_rb_sb_exact",
    "C77_rb_tb_reuse",
    "C77_rb_tb_phases",
    "C77_rb_tb_exact",
    "C77_av_same_run",
    "C77_av_sb_streaming",
    "C77_av_sb_late",
    "C77_av_sb_late_key",
    "C77_av_sb_exact",
    "C77_av_tb_reuse",
    "C77_av_tb_phases",
    "C77_av_tb_exact",
    "C77_cb_same_run",
    "C77_cb_sb_streaming",
    "C77_cb_sb_late",
    "C77_cb_sb_exact",
    "C77_cb_tb_reuse",
    "C77_cb_tb_phases",
    "C77_cb_tb_exact",
    "C77_sb_collect_refuted",
    "C77_tb_again_refuted"
   ],
   "note": ""
  },
  {
   "property": "C78",
   "status": "proved",
   "theorems": [
    "C78_u32",
    "C78_u64",
    "C78_i32",
    "C78_as_u32",
    "C78_as_i32",
    "C78_leading_zeros",
    "C78_crit_bit_mask",
    "C78_round_up"
   ],
   "note": ""
  },
  {
   "property": "C79",
   "status": "proved",
   "theorems": [
    "C79_red_uncle",
    "C79_right_right",
    "C79_right_left",
    "C79_left_left",
    "C79_left_right",
    "C79_remove_root",
    "C79_structural_refuted",
    "C79_delete",
    "C79_delete_1024",
    "C79_delete_2048",
    "C79_delete_refuted",
    "C79_dq_asserts"
   ],
   "note": ""
  },
  {
   "property": "C80",
   "status": "proved",
   "theorems": [
    "C80_ht_calls",
    "C80_ht_iter",
    "C80_rb_calls",
    "C80_av_calls",
    "C80_rb_shape",
    "C80_av_shape",
    "C80_rb_safe",
    "C80_av_safe",
    "C80_ht_reopened",
    "C80_ht_reopened_insert",
    "C80_ht_reopened_remove",
    "C80_rb_reversed",
    "C80_av_reversed",
    "C80_ht_distinct_refuted"
   ],
   "note": ""
  },
  {
   "property": "C81",
   "status": "proved",
   "theorems": [
    "C81_future",
    "C81_future_unique",
    "C81_free_live",
    "C81_free_twice",
    "C81_free_next",
    "C81_free_next_register",
    "C81_free_fresh",
    "C81_remove_answer",
    "C81_harmless_set",
    "C81_harmless_write",
    "C81_write_freed",
    "C81_size_field",
    "C81_stale_registers",
    "C81_fresh_registers",
    "C81_any_calls",
    "C81_no_double_hand_out_refuted",
    "C81_panicking_remove_refuted"
   ],
   "note": ""
  },
  {
   "property": "C82",
   "status": "proved",
   "theorems": [
    "C82_alloc",
    "C82_dq_reads",
    "C82_dq_first",
    "C82_dq_late",
    "C82_ht_reads",
    "C82_ht_first",
    "C82_ht_late",
    "C82_rb_reads",
    "C82_rb_first",
    "C82_rb_late",
    "C82_av_reads",
    "C82_av_first",
    "C82_av_late",
    "C82_cb_reads",
    "C82_cb_first",
    "C82_cb_third",
    "C82_cb_first_refuted",
    "C82_repeat_refuted"
   ],
   "note": ""
  },
  {
   "property": "C83",
   "status": "proved",
   "theorems": [
    "C83_tree_walks",
    "C83_red_black",
    "C83_avl",
    "C83_hash_table",
    "C83_hash_table_iterator",
    "C83_critbit",
    "C83_is_valid_exponential",
    "C83_fix_insert_refuted",
    "C83_fix_remove_refuted"
   ],
   "note": ""
  },
  {
   "property": "C84",
   "status": "proved",
   "theorems": [
    "C84_copies",
    "C84_count",
    "C84_loops",
    "C84_rb_amortised",
    "C84_rb_amortised_from"
   ],
   "note": ""
  },
  {
   "property": "C85",
   "status": "proved",
   "theorems": [
    "C85_rounds",
    "C85_get_mut_twice",
    "C85_twice_least",
    "C85_get_refuted"
   ],
   "note": ""
  },
  {
   "property": "C86",
   "status": "proved",
   "theorems": [
    "C86_rb_insert_remove",
    "C86_rb_remove_insert",
    "C86_av_insert_remove",
    "C86_av_remove_insert",
    "C86_cb_insert_remove",
    "C86_cb_remove_insert",
    "C86_ht_insert_remove",
    "C86_dq_push_pop",
    "C86_dq_pop_push",
    "C86_rb_remove_root_refuted",
    "C86_av_root_refuted",
    "C86_cb_addr_refuted",
    "C86_ht_remove_insert_refuted",
    "C86_dq_seqno_refuted",
    "C86_dq_full_refuted"
   ],
   "note": ""
  },
  {
   "property": "C87",
   "status": "proved",
   "theorems": [
    "C87_rb",
    "C87_av",
    "C87_rb_av",
    "C87_cb",
    "C87_ht",
    "C87_ht_blind",
    "C87_dq",
    "C87_rb_remove_root_refuted",
    "C87_ht_buckets_refuted",
    "C87_dq_slots_refuted"
   ],
   "note": ""
  },
  {
   "property": "C88",
   "status": "proved",
   "theorems": [
    "C88_rb_law",
    "C88_rb_alone",
    "C88_rb_any_order",
    "C88_av_law",
    "C88_av_alone",
    "C88_av_any_order",
    "C88_cb_law",
    "C88_cb_alone",
    "C88_cb_any_order",
    "C88_ht_law",
    "C88_ht_alone",
    "C88_ht_any_order",
    "C88_dq_ends",
    "C88_rb_full_refuted",
    "C88_cb_overwrite_refuted",
    "C88_rb_remove_insert_refuted",
    "C88_ht_order_refuted",
    "C88_dq_last_refuted"
   ],
   "note": ""
  },
  {
   "property": "C89",
   "status": "proved",
   "theorems": [
    "C89_av_drawing",
    "C89_av_shapes",
    "C89_av_built",
    "C89_av_everywhere",
    "C89_av_hang",
    "C89_av_heights",
    "C89_av_depth_attained",
    "C89_av_always_hangs_refuted"
   ],
   "note": ""
  },
  {
   "property": "C90",
   "status": "proved",
   "theorems": [
    "C90_av_is_book",
    "C90_av_insert",
    "C90_av_remove",
    "C90_book_contents",
    "C90_av_sorted",
    "C90_av_same_tree"
   ],
   "note": ""
  },
  {
   "property": "C91",
   "status": "proved",
   "theorems": [
    "C91_rb_is_hue",
    "C91_rb_insert",
    "C91_rb_remove",
    "C91_rb_remove_root",
    "C91_hue_contents",
    "C91_rb_same_tree",
    "C91_rb_red_child_refuted"
   ],
   "note": ""
  },
  {
   "property": "C92",
   "status": "proved",
   "theorems": [
    "C92_rb_height",
    "C92_rb_sorted"
   ],
   "note": ""
  },
  {
   "property": "C93",
   "status": "proved",
   "theorems": [
    "C93_dq_methods",
    "C93_rb_methods",
    "C93_av_methods",
    "C93_cb_methods",
    "C93_ht_methods",
    "C93_rb_av_eq"
   ],
   "note": ""
  },
  {
   "property": "C94",
   "status": "proved",
   "theorems": [
    "C94_keys",
    "C94_total",
    "C94_average",
    "C94_least",
    "C94_bad_keys",
    "C94_family_exists",
    "C94_linear_family",
    "C94_product_family"
   ],
   "note": ""
  },
  {
   "property": "C95",
   "status": "proved",
   "theorems": [
    "C95_ht_reachable",
    "C95_ht_get_mut_orders"
   ],
   "note": ""
  },
  {
   "property": "C96",
   "status": "proved",
   "theorems": [
    "C96_dq_layouts",
    "C96_dq_memories"
   ],
   "note": ""
  },
  {
   "property": "C97",
   "status": "proved",
   "theorems": [
    "C97_dq_sights",
    "C97_dq_parity"
   ],
   "note": ""
  }
 ]
}
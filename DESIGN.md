# Formal model of Ellipsis-Labs/sokoban in Rocq (Coq 8.16.1)

English statements of the properties: `properties.jsonl`. Status and theorem names: `MANIFEST.json`. Wrong programs the
theorems were tried on: `seeded/LOG.jsonl`.

## 1. What is modelled, and how

* **Executable Gallina, function by function.** Each `*Model.v` file mirrors one Rust source file, with file and line cited at every
  definition. A `&self` method is a total function `state -> res A`; a `&mut self` method is a computation
  `M state A = state -> outcome`. An outcome is `Ret a s'` or `Fail e s'`, where `e` is `Panic` (assert!, panic!, unwrap on None, index out
  of bounds, arithmetic overflow with overflow checks on), `UB` (an out-of-bounds raw pointer in the `unsafe` blocks of
  the mutable iterators) or `OutOfFuel` (a Rust loop that did not finish in the fuel given). The state at the point of failure is
  kept, so "panics and changes nothing" is expressible. Theorems about results exclude all three failures.
* **Loops** are recursion on explicit fuel. The public entry points use a fuel computed from the capacity. Theorems
  prove that `OutOfFuel` is never returned: this is the termination claim.
* **Integers.** Registers, indices, sizes are `N` with explicit `u32`/`u64`/`i32`/`u128` arithmetic. The class `Profile` has
  one boolean, `overflow_checks`: when true an overflow panics (debug build, or Solana's `overflow-checks = true`), when false it
  wraps (release build). All theorems hold for both profiles.
* **Arrays** are lists; `MAX_SIZE`, `NUM_NODES`, `NUM_BUCKETS` are the lengths of the lists. Theorems about reachable
  states assume `MAX_SIZE + 1 < 2^32` (otherwise `(MAX_SIZE + 1) as u32` truncates, see C74; such an allocator needs > 16 GB).
* **Key types.** RedBlackTree: an arbitrary type with `cmp : K -> K -> comparison` satisfying the `Ord` contract (keys
  comparing Equal need not be identical). AVLTree: `partial_cmp : K -> K -> option comparison`; total-order laws assumed for the map
  theorems, refuted without. HashTable: `==` an equivalence and an arbitrary hash function compatible with it (the
  SipHash `DefaultHasher` is not computed: the theorems hold for every hash function). Critbit: `N` below 2^128. Values: arbitrary
  type with a default.
* **References** returned by `get_mut`/`index_mut`/`iter_mut` are modelled by the one write the caller makes: the operation takes a
  function `V -> V` applied to the referenced slot. For `iter_mut`, references kept and used later are modelled as well (C66, `HeldModel.v`): the
  result is the same.
* **Histories.** `*Api.v` files list the public calls as an inductive type of operations with a `step` function made of the model's functions.
  Property theorems quantify over all lists of operations from `new()` (or from zeroed bytes + `initialize`).
* **Bytes** (`BytesModel.v`). `repr(C)` field offsets and struct sizes computed from size and alignment of the
  fields by the C rule; integers little-endian; arrays contiguous; padding bytes written as 0 and ignored on reading; bytemuck 1.13
  `from_bytes`/`from_bytes_mut` panic on wrong length or misaligned address; the layout assertions of
  `NodeAllocator::assert_proper_alignment` and `RedBlackTree::assert_proper_alignment`; `ZeroCopy`, `FromSlice`.
* **Code repeated in the sources.** `WalkModel.v` holds once what red_black_tree.rs and avl_tree.rs contain twice with the same text up to
  names (`get_addr`, both iterators, min/max walks); its comments cite both places.

### Not modelled

* Console output (`println!`) as an effect, `Vec` allocation failure, timing in `benches/` (the programs themselves are modelled, C69), `Debug`/`Clone` derives. Of `tests/test.rs` everything but the thread pool and the printing is modelled (C63); the generator is a parameter, and the BTreeMap it is compared with is the specification's ordered list. Of the `#[test]`s inside `src/`, `test_deque` and the five `test_delete_multiple_random_*` are modelled (C64), with any values, breakpoints and keys in place of the random and hashed ones (the hasher is not modelled); the five structural tests and `remove_root` of `red_black_tree.rs` with any keys in the same relative order (C65). With that every `#[test]` of the crate is covered.
* Direct user writes to `pub` fields (`root`, `head`, `tail`, `buckets`, `allocator.nodes`) and to `CritbitNode::prefix_len`. (Key changes through `get_node_mut` are C70.)
* Panics of user code, except where C59 says otherwise; panics unwinding out of `Vec` growth.
* The hash function itself (an arbitrary function in the theorems).
* The aliasing rules of Rust references for code other than programs that hold an `iter_mut` iterator (for those see C77, which has Stacked Borrows and Tree Borrows without protectors, two-phase borrows and interior mutability).

## 2. Proof architecture

* `Prelude.v` monads, checked arithmetic, weakest preconditions (`wp`).
* `Spec.v`, `MapSpec.v`, `HashSpec.v`, `ValidSpec.v`, `BytesSpec.v`, and the `*Spec.v` files named in the table: small
  specifications, independent of the models, in which the theorems are stated.
* `AllocProof.v` one representation predicate `AOK a cells`: the allocated nodes of allocator `a` are exactly the cells
  `cells : list (index * node)` (distinct, in range), the rest is a free list plus a fresh zone. It plays the
  role of a separation-logic heap assertion: writes to one cell keep all the others, cells may be permuted.
* Each container has a functional shadow (list, chains, tree with node addresses, plus a zipper for the path), a function mapping
  the shadow to cells, and lemmas saying that each pointer routine performs a given transformation of the shadow. Red-black, AVL, prefix-tree
  and ordering invariants are then proved on the shadow.
* `SearchProof.v` shows that the search loops of the lookups (each modelled separately, as in the source) agree with search by address.
* `Typed*.v` show that every number stays within its Rust type; the byte layer needs this.
* `*Props.v` hold only property theorems, each with `Print Assumptions` and a concrete example meeting its hypotheses.

## 3. Per property: what is modelled, how it is proved

| ids | how | theorems |
|---|---|---|
| C01, C02, C03, C04 | `AllocModel.v`. Histories of add/remove/register calls (`AllocApi.v`); invariant `AOK` with the free stack as ghost state (`AllocPoolProof.v`). | `C01_add_node_fresh`, `C02_add_node_iff_room`, `C02_no_other_failure`, `C03_size_counts`, `C04_add_node_local`, `C04_remove_node_local`, `C04_remove_sentinel` |
| C05 | `initialize`/`new`/`Default` of all six structures. Zeroed state, then initialise = `new`; no state reachable afterwards looks uninitialised (`Typed*.v`). | `C05_alloc_zeroed`, `C05_dq_zeroed`, `C05_ht_zeroed`, `C05_rb_zeroed`, `C05_av_zeroed`, `C05_cb_zeroed`, `C05_alloc_again`, `C05_dq_again`, `C05_ht_again`, `C05_rb_again`, `C05_av_again`, `C05_cb_again`, `C05_dq_default`, `C05_ht_default`, `C05_rb_default`, `C05_av_default`, `C05_cb_default` |
| C06 | `AllocModel.v`, direct computation on arbitrary states. | `C06_connect`, `C06_disconnect`, `C06_clear_register`, `C06_set_register`, `C06_get_register_sentinel` |
| C07, C08, C09, C10, C11, C12 | `DequeModel.v`. Refinement to `list` by induction over histories; the iterator as two cursors on that list; `Deque::_remove` applied to any live node. | `C07_deque_is_sequence`, `C08_push_full`, `C08_push_room`, `C09_deque_iter`, `C10_deque_iter_mut`, `C11_sequence_number`, `C12_links`, `C12_head_tail_empty`, `C12_remove_any` |
| C13, C14, C15 | `HashModel.v`. Refinement to a set of pairs; buckets as doubly linked chains; `==` any equivalence, hash any function respecting it. | `C13_ht_is_map`, `C13_ht_contents_unique`, `C14_ht_insert_full_new`, `C14_ht_insert_full_present`, `C15_ht_iter` |
| C16 | Refuted: `next_back` always answers None. What the code does is proved for every table. | `C16_ht_rev_empty`, `C16_ht_rev_refuted` |
| C17, C18 | `HashModel.v`. Refinement to a set of pairs; buckets as doubly linked chains; `==` any equivalence, hash any function respecting it. | `C17_ht_get_mut`, `C18_ht_addresses` |
| C19, C20, C21, C22, C23, C24, C25 | `RBModel.v`. Tree with node addresses and zipper; black heights in the indices of the contexts; log depth from black heights. | `C19_rb_is_map`, `C19_rb_runs`, `C20_rb_iter`, `C21_rb_valid`, `C22_rb_depth`, `C22_rb_search_steps`, `C23_rb_min`, `C23_rb_max`, `C24_rb_addresses`, `C25_rb_remove_root` |
| C26 | iter_mut of all maps; the refinement says which slots were written, with which function. | `C26_av_iter_mut`, `C26_cb_iter_mut`, `C26_ht_iter_mut`, `C26_rb_iter_mut` |
| C27, C28, C29, C30, C31, C32 | `AVLModel.v`. Same trees; heights may be stale on the path while rebalancing, exact afterwards; Fibonacci bound. | `C27_av_is_map`, `C28_av_iter`, `C29_av_balanced`, `C30_av_depth`, `C30_av_heights`, `C30_av_search_steps`, `C31_av_min`, `C31_av_max`, `C32_av_addresses` |
| C33, C34 | `CritModel.v`. Prefix trees over 128-bit keys (`CritBits.v` for lcp/bit facts). | `C33_cb_is_map`, `C34_cb_iter` |
| C35 | Positive for three maps; refuted for a full Critbit. | `C35_av_update`, `C35_cb_update`, `C35_cb_refuted`, `C35_ht_update`, `C35_rb_update` |
| C36 | `CritModel.v`. Prefix trees over 128-bit keys (`CritBits.v` for lcp/bit facts). | `C36_cb_min`, `C36_cb_max` |
| C37 | Refuted for node addresses, positive for what remains stable. | `C37_cb_insert_addr`, `C37_cb_addr_same`, `C37_cb_value_slot`, `C37_cb_stable_refuted` |
| C38 | Positive for non-empty trees, refuted for the empty tree (panic). | `C38_cb_addr`, `C38_cb_addr_empty`, `C38_cb_steps`, `C38_cb_empty_refuted` |
| C39 | `CritModel.v`. Prefix trees over 128-bit keys (`CritBits.v` for lcp/bit facts). | `C39_cb_nodes`, `C39_cb_new` |
| C40 | Positive; capacity 0 refuted for RedBlackTree, AVLTree, Critbit (panic). | `C40_av_full`, `C40_av_capacity0_refuted`, `C40_cb_full`, `C40_cb_capacity0_refuted`, `C40_ht_full`, `C40_rb_full`, `C40_rb_capacity0_refuted` |
| C41, C42, C43 | `BytesModel.v`: repr(C) offsets, little-endian integers, bytemuck casts. Proved once over an abstract codec, then instantiated. | `C41_alloc_reload`, `C41_dq_reload`, `C41_ht_reload`, `C41_rb_reload`, `C41_av_reload`, `C41_cb_reload`, `C41_dq_view`, `C41_ht_view`, `C41_rb_view`, `C41_av_view`, `C41_cb_view`, `C42_load_long`, `C42_load_short`, `C42_short_refuted`, `C43_dq_zeroed`, `C43_ht_zeroed`, `C43_rb_zeroed`, `C43_av_zeroed`, `C43_cb_zeroed`, `C43_dq_again`, `C43_ht_again`, `C43_rb_again`, `C43_av_again`, `C43_cb_again`, `C43_dq_unfit`, `C43_ht_unfit`, `C43_rb_unfit`, `C43_av_unfit`, `C43_cb_unfit`, `C43_dq_exact`, `C43_ht_exact`, `C43_rb_exact`, `C43_av_exact`, `C43_cb_exact` |
| C44 | Corollaries of the refinements, for every reachable state. | `C44_av_index`, `C44_cb_index`, `C44_ht_index`, `C44_rb_index` |
| C45 | Corollary of the refinements (`CmpMain.v`). | `C45_rb_av`, `C45_rb_cb`, `C45_cb_full_refuted` |
| C46 | Refuted for arbitrary trees; exact characterisation of what the function decides (`Valid*.v`). | `C46_is_valid_refuted`, `C46_is_valid_exact`, `C46_is_valid_complete`, `C46_is_valid_sound_full` |
| C47 | Refuted with an incomparable element. | `C47_av_incomparable_refuted` |
| C48 | Corollaries of the refinements, for every reachable state. | `C48_av_lookups`, `C48_cb_lookups`, `C48_cb_empty_refuted`, `C48_ht_lookups`, `C48_rb_lookups` |
| C49, C50 | `BytesModel.v`: repr(C) offsets, little-endian integers, bytemuck casts. Proved once over an abstract codec, then instantiated. | `C49_alloc_assert`, `C49_rb_assert`, `C50_dq_refuted`, `C50_rb_refuted`, `C50_ht_refuted`, `C50_av_refuted`, `C50_align16_refuted`, `C50_cb_refuted`, `C50_dq_tight`, `C50_rb_tight`, `C50_ht_tight`, `C50_av_tight`, `C50_cb_tight` |
| C51 | `ProfProof.v` relates every modelled function in the build with overflow checks to itself in an arbitrary build (panic, or same result; about 190 lemmas, no hypothesis on the state). `ProfMain.v` excludes the panic with the invariants of the other properties, by induction over the history. `C51_*_step`: all states; `C51_*`: reachable states, answers and final structure equal; `C51_dq_seqno_refuted`: the sequence number at 2^64-1. | `C51_alloc_step`, `C51_dq_step`, `C51_ht_step`, `C51_rb_step`, `C51_av_step`, `C51_cb_step`, `C51_alloc`, `C51_dq`, `C51_ht`, `C51_rb`, `C51_av`, `C51_cb`, `C51_dq_seqno_refuted` |
| C52 | `PrintModel.v` is the loop with its stack of (node, padding, pointer), text as a list of code points, the key's `Debug` formatting an arbitrary function. `PrintApi.v` is the specification: a tree read off the registers (`rb_shows`) and its lines by structural recursion. `C52_text`: for all structures whose registers spell out a tree; `C52_reachable`: for all histories; `C52_lines`: the lines carry each key once. | `C52_text`, `C52_lines`, `C52_reachable` |
| C53 | `OrderSpec.v` is the specification: a deterministic function on lists of chains. `C53_ht_order`: the answers of every history are equal to the specification's, for arbitrary `keq`/`hash` (no `HashLaws`); `C53_ht_iter_order`: any script of `next`/`next_back` after any history. Proof: the chain invariant of HashProof.v with the clause on distinct keys made trivial, and the operations redone without it (`OrderProof.v`). | `C53_ht_order`, `C53_ht_iter_order` |
| C54 | `LooseSpec.v` is the specification: binary trees, `bt_find`/`bt_put`/`bt_del`/`bt_upd` (what a search with an arbitrary `cmp` does), the step relation `bt_step` and its histories `bt_run`; how a tree is reshaped by rebalancing is left open, the left-to-right sequence is not. `C54_rb_any_order`, `C54_av_any_order`: the tree read from the registers of the structure after any history is related to the empty tree by `bt_run` with exactly the answers given. `C54_*_shape` (red-black / AVL, depth), `C54_*_safe` (only Index panics), `C54_pairs_kept` (what a step can do to the pairs), `C54_lawful` (with a total order this is the ordered map of MapSpec). No law of `cmp` is used: the proofs of RBOps/AVLOps are redone with the invariant without sortedness and `follows` (the context is the path the search takes) instead of `onpath`. Examples: a comparison that always says Less, NaN in an AVL tree. | `C54_rb_any_order`, `C54_av_any_order`, `C54_rb_shape`, `C54_av_shape`, `C54_rb_safe`, `C54_av_safe`, `C54_pairs_kept`, `C54_lawful` |
| C55 | `FuzzModel.v` models `perform_action` (over the methods of the trait NodeAllocatorMap it calls) and the loops of the four targets; the random index is any number modulo `keys.len()`, a `for` loop over an iterator is the answers of `next` up to the first `None`. `FuzzProof.v` lists what the harness needs of a map (`fz_ok`) and proves by induction over the actions that `keys` holds exactly the keys of the map; the trees meet `fz_ok` because every history is answered by the specification (C19, C27, C33), the hash table because of C13's step lemma. `C55_rb_fuzz` (with C21 for `is_valid`), `C55_av_fuzz`, `C55_ht_fuzz`, `C55_cb_fuzz`, and `C55_cb_fuzz_refuted`: after inserting MAX_SIZE distinct keys an upsert of another value panics. | `C55_rb_fuzz`, `C55_av_fuzz`, `C55_ht_fuzz`, `C55_cb_fuzz`, `C55_cb_fuzz_refuted` |
| C56 | SafeProof.v: a compositional predicate (the computation does not end in UB) proved for every function of the models without a hypothesis on the state; the raw accesses of the mutable iterators are in bounds because the checked register read of the same index precedes them (tree iterators: and because no SENTINEL enters the stacks). Histories over arbitrary states and over arbitrary byte buffers reloaded before every call. `_refuted`: Critbit's iter_mut reads the leaf array at an unchecked register (critbit.rs:708-722), so bytes exist on which it leaves the array (positive part: it does not if no leaf register exceeds the array, C56_cb_iter_mut_in_bounds); bytes exist on which an iter_mut yields the same slot twice (all five containers); bytes exist on which a lookup or an iterator never ends (out of any fuel). | `C56_al_in_bounds`, `C56_dq_in_bounds`, `C56_ht_in_bounds`, `C56_rb_in_bounds`, `C56_av_in_bounds`, `C56_cb_in_bounds`, `C56_cb_iter_mut_in_bounds`, `C56_cb_iter_mut_refuted`, `C56_dq_alias_refuted`, `C56_ht_alias_refuted`, `C56_rb_alias_refuted`, `C56_av_alias_refuted`, `C56_cb_alias_refuted`, `C56_rb_hang_refuted`, `C56_av_hang_refuted`, `C56_ht_hang_refuted`, `C56_cb_hang_refuted`, `C56_dq_endless_refuted` |
| C57 | NavSpec.v: a plain binary tree with a view of every node (parent, index, pair, children) and the records rb_tells / ht_tells listing what each getter must answer; NavProof.v reads the ghost tree of the red-black invariant off as such a tree, NavHash.v the chains of the HashTable invariant, NavAv.v / NavCb.v relate get_node_mut / get_leaf_mut with get_mut. | `C57_rb_navigation`, `C57_rb_node_mut`, `C57_ht_navigation`, `C57_av_node_mut`, `C57_cb_leaf_mut` |
| C58 | CostModel.v: copies of the operations with every loop stopped with OutOfFuel after a given number of rounds; the theorems say the copy computes the same result and state as the operation. CostProof.v: a result other than OutOfFuel does not depend on the fuel; CostRB.v: the correctness proofs of RB insertion and removal redone for a fuel of the height of the tree; CostAv.v, CostCb.v, CostHt.v the same for the others, with the height bounds of C22, C30, C38. | `C58_rb_rounds`, `C58_av_rounds`, `C58_cb_rounds`, `C58_ht_rounds` |
| C59 | PanicModel.v: copies of the operations that call user code, with that code in res (Err Panic = panic) at its place among reads and writes; for AVLTree the two tests < and > are separate calls. PanicProof.v: a copy and the original agree, or the copy fails in the state it began in; only reads precede the last call of user code. | `C59_rb_call`, `C59_rb_history`, `C59_av_call`, `C59_av_history`, `C59_ht_call`, `C59_ht_history` |
| C60 | ShapeSpec.v: radix_tree_of, the textbook construction from a list of pairs by bits from the most significant on; cb_shape, the tree read through the registers. ShapeProof.v: well-formed ghost trees have the shape radix_tree_of computes (induction on the number of bits left); ghost trees are what is in memory (C33). Contrasts as _refuted witnesses. | `C60_cb_shape`, `C60_cb_history_independent`, `C60_rb_shape_refuted`, `C60_av_shape_refuted`, `C60_cb_slots_refuted` |
| C61 | SlotSpec.v: the machine (slots_step, dslots_step) sees only the contents before and after each call; `unused` says what the free list and the fresh part of the array hold. The heap invariant CH carries a ghost (class Ghost, AllocProof.v) on the contents of free slots; SlotGhost.v instantiates it with the exact free list and proves that an operation which adds/removes at most one slot does so at its head. Operations are proved once for every ghost closed under the steps they make. | `C61_rb_slots`, `C61_av_slots`, `C61_ht_slots`, `C61_cb_slots`, `C61_dq_slots`, `C61_dq_remove_slot`, `C61_rb_av_same_slots` |
| C62 | SubsetSpec.v: the contracts relativised to a set P of keys (OrdLawsOn, HashLawsOn). The trees: C54 says what they do for an arbitrary comparison (bt_run); as long as all keys are in P that is what they would do with the comparison extended to a total order (all keys outside P in one lump after the others), which by induction over the history is the ordered map. The hash table the same way from C53 (chains for arbitrary == and hash) and C13. This is the positive side of C47. | `C62_rb_subset`, `C62_av_subset`, `C62_ht_subset` |
| C63 | TestModel.v: `simulate` statement by statement over the trait (FuzzModel.nam), its four instances, the generator as a record of functions of the number of draws made so far; assertions panic. TestProof.v: for any map that behaves as a bounded ordered map (record sim_ok: answers of the calls, sorted or unsorted iteration) the loops keep an invariant (map = BTreeMap, keys vector is a permutation of its keys, s its length, every key stems from an earlier draw); the iterator checks follow from the double-ended specification. TestTrees.v/TestHash.v: the four maps behave so (C19, C27, C33, C13, C16). | `C63_rb_simulate`, `C63_av_simulate`, `C63_cb_simulate`, `C63_ht_simulate`, `C63_rb_same_key`, `C63_av_same_key`, `C63_cb_same_key`, `C63_ht_same_key`, `C63_rb_unlucky`, `C63_av_unlucky`, `C63_cb_unlucky`, `C63_simulate_passes_refuted` |
| C64 | UnitModel.v: the tests statement by statement (zip stops with the shorter iterator and asks the first one first; VecDeque and BTreeMap are lists). UnitProof.v: deque loops by the simulation of C09 (DSim); fill and drain loops of the tree by the specification of C19, validity by C21, addresses by C24; key_to_index gives equal indices exactly for equal keys. Both directions: when the inputs are not good the test panics. | `C64_dq_test`, `C64_dq_test_small`, `C64_dq_test_tiny`, `C64_rb_delete`, `C64_rb_delete_1024`, `C64_rb_delete_2048` |
| C65 | RelSpec.v: the relations on values, states, calls and answers. RelProof.v: a relational lemma per model function (mrel: related states to the same outcome and related states). RelMain.v: histories by induction; numbers: rank of a key among the keys of the history (red-black, AVL), position of the first equal key (hash table). StructModel.v: the structural tests with keys as parameters; StructProof.v: keys paired with numbers in the same order, the test on pairs is evaluated (keys, values and order stay variables), and the relation carries the outcome over. | `C65_al`, `C65_dq`, `C65_cb`, `C65_rb`, `C65_av`, `C65_ht`, `C65_rb_address`, `C65_av_address`, `C65_ht_address`, `C65_cb_address`, `C65_rb_numbers`, `C65_av_numbers`, `C65_ht_numbers`, `C65_test_red_uncle`, `C65_test_right_right`, `C65_test_right_left`, `C65_test_left_left`, `C65_test_left_right`, `C65_test_remove_root` |
| C66 | HeldModel.v: next/next_back of the five mutable iterators yield a reference (the index its address is computed from); reading the key and reading/writing the value are separate steps. HeldSpec.v: the observer's view (one cell per reference) and the program that does everything at once. HeldGen.v: for any iterator whose steps do not look at values and whose references go to different slots the two programs end in the same state (induction over the program; writes to different slots commute). HeldProof.v: the laws for the five collections; HeldMain.v: combined with C10/C26. | `C66_dq_held`, `C66_ht_held`, `C66_rb_held`, `C66_av_held`, `C66_cb_held` |
| C67 | GrowSpec.v: the same record with more nodes behind (`.._grow`), programs of calls and growings (`grown`) and their specification (`grown_run`: the capacity of the time). GrowProof.v: growing keeps the invariant of each structure with the same entries (free list and bump index are unaffected; the new nodes are unallocated and blank). GrowMain.v: induction over the segments with the history lemmas of each structure. GrowBytes.v: encodings with zeros at the end are encodings of the grown structure (through arrays, fields and structs), so the byte programs (`regrown`) follow the structure programs. Refuted at the border: new nodes with nonzero registers (C67_dq_dirty_refuted), a larger NUM_NODES of Critbit in bytes (C67_cb_num_nodes_refuted). The crate has no function for this: `realloc` is the model's own, and padding bytes are zero as everywhere in the byte model. | `C67_dq_grow`, `C67_rb_grow`, `C67_rb_addresses`, `C67_av_grow`, `C67_av_addresses`, `C67_ht_grow`, `C67_ht_addresses`, `C67_cb_grow`, `C67_cb_slots`, `C67_dq_realloc`, `C67_ht_realloc`, `C67_rb_realloc`, `C67_av_realloc`, `C67_cb_realloc`, `C67_dq_dirty_refuted`, `C67_cb_num_nodes_refuted` |
| C68 | LayoutSpec.v writes the bytes of each structure out (`wire_X`), independently of the codec combinators of BytesModel.v. LayoutProof.v: a struct whose size is the sum of the sizes of its fields has no padding anywhere, so its encoding is the concatenation of theirs (sizes from C50). LayoutMain.v: fixed-stride arrays give the offset of a slot; with the slots of C61 the entries of the map. Not covered: types with gaps (their offsets are those of repr(C), see C41/C50, but not written out here). | `C68_le_bytes`, `C68_alloc_wire`, `C68_dq_wire`, `C68_ht_wire`, `C68_rb_wire`, `C68_av_wire`, `C68_cb_wire`, `C68_dq_offset`, `C68_ht_offset`, `C68_rb_offset`, `C68_av_offset`, `C68_cb_offsets`, `C68_rb_entries`, `C68_rb_registers`, `C68_av_entries`, `C68_av_registers`, `C68_ht_entries`, `C68_ht_registers`, `C68_dq_entries`, `C68_dq_registers`, `C68_cb_entries` |
| C69 | BenchModel.v: the three benchmark programs over the interface of FuzzModel.v, collecting the answers that the Rust code discards; `rng.gen`, `shuffle` and the number of iterations are parameters. BenchProof.v: proved once for whatever map answers like a map (the requirements of C55 plus: removing an absent key answers None), then instantiated with C19, C27, C33 and the hash-table refinement. Examples instantiate the theorems at the constants of the file. Not covered: the two std-library benchmarks of each kind, and timing. | `C69_rb_insert`, `C69_rb_lookup`, `C69_rb_remove`, `C69_av_insert`, `C69_av_lookup`, `C69_av_remove`, `C69_ht_insert`, `C69_ht_lookup`, `C69_ht_remove`, `C69_cb_insert`, `C69_cb_lookup`, `C69_cb_remove` |
| C70 | RekeySpec.v: runs of calls and overwritings over the abstract maps, with the three conditions `fits_order`, `fits_bucket`, `fits_bits`; after an overwriting that is not allowed the relation says nothing. RekeyModel.v: the assignments, and the client step. Proved once over any invariant that steps (`k_run_ok`), then per container from the invariants of C01–C07: writing the pair of one node keeps shape, colours, heights and registers, and the condition keeps the key order / chain / admissible prefix. `ex_C70_only` shows that the relation pins the answers. Refuted for other keys by witnesses. Writes to `CritbitNode::prefix_len` are not modelled. | `C70_rb`, `C70_av`, `C70_ht`, `C70_cb`, `C70_rb_any_key_refuted`, `C70_av_any_key_refuted`, `C70_ht_any_key_refuted`, `C70_cb_any_key_refuted` |
| C71 | Model as before (no new definitions of code). Specification DegenSpec.v: the answer to each call, written out. Proved by computing each call on the new structure with the arguments abstract (the structure is a fixed point of all calls), and for Critbit by an invariant that counts the lost nodes. These close the cases excluded by the hypotheses 0 < MAX_SIZE and 0 < NUM_BUCKETS of the other theorems. | `C71_rb_capacity0`, `C71_av_capacity0`, `C71_cb_capacity0`, `C71_ht_no_buckets`, `C71_cb_leak_refuted` |
| C72 | RotModel.v copies the operations that rotate with a number of rotations handed along: a rotation takes one, and with none left it is the failure OutOfFuel. C72_copies: with any number the copy runs out or ends exactly as the operation, in every state. The bounds: the invariants of C01/C02 with the number in them. Red-black: after the rotations at a black uncle the loop stops, after a removal only the last round rotates. AVL insertion: heights above the first rotation are the old ones. AVL removal: a node that rotates was two higher than the subtree that shrank, so two rotations are paid by two levels. Trusted: that every call of a rotation in the copy takes one of the number (read off the text). | `C72_copies`, `C72_rb_rotations`, `C72_av_rotations` |
| C73 | IterModel.v copies the iterators with a number of places on each stack, a number of rounds for each direction over the life of the iterator, and a number of rounds for one call; what exceeds them is the failure OutOfFuel. C73_copies: with any numbers the copy runs out or answers exactly as the iterator, in every state. The bounds by an invariant on the iterator: the indices on the stack and the current pointer are roots of disjoint subtrees, position on the stack plus height of the subtree is at most the height of the tree, and twice the nodes not yet pushed plus the nodes on the stack is at most what is left of the rounds. The heights come from C22, C30 and C58. Trusted: that every push of the copy asks for a place and every round takes one (read off the text). Not covered: the order in which Vec reallocates its buffer. | `C73_copies`, `C73_rb_room`, `C73_av_room`, `C73_cb_room`, `C73_ht_rounds` |
| C74 | The allocator of AllocModel.v as it is, for any length of the node array. The state after k additions is size k, bump_index = free_list_head = (k + 1) mod 2^32; by induction on the values added. The containers: the first insertion is add_node on the new allocator. No new modelling. | `C74_handed_out`, `C74_exact`, `C74_first_insert` |
| C75 | Model as it is. A predicate on programs, [tp K n m]: in every state m changes at most n slots besides those in K, names of slots being the symbolic indices of the program; rules for bind, branches and the primitives of AllocModel.v (a write to a register or value touches one slot, add_node the slot of free_list_head, remove_node the slot freed). For the trees the round-limited copies of CostModel.v are counted, in any state, and C58 makes them equal to the operations on reachable trees. The bytes: the wire format of C68, a byte of a concatenation of equally long pieces depends on its piece only. The constants are what counting rounds gives, not the smallest (the rotations of one insertion or removal are bounded by C72). | `C75_dq_push`, `C75_dq_remove`, `C75_ht`, `C75_cb`, `C75_rb`, `C75_av`, `C75_rb_bytes`, `C75_av_bytes` |
| C76 | The harness (FuzzModel.v) and the test (TestModel.v) are already parametrised by the map. Exact characterisations by running the program symbolically for an arbitrary map; two wrong maps (DetectSpec.v) shown to pass by invariants over all runs: every key the harness remembers is in the map; the number equals the length of the test's vector of keys. The two wrong maps are not part of the repository; they measure its tests. The two `_refuted` theorems refute the claim that passing these tests makes a map right. | `C76_fuzz_action`, `C76_fuzz_iter`, `C76_fuzz_run`, `C76_fuzz_refuted`, `C76_simulate_asserts`, `C76_simulate_ht_refuted`, `C76_simulate_no_get` |
| C77 | AliasSpec.v states both rules, independently of the repository, on traces of events (reborrow as &mut, & or *mut, read, write) whose pointers are paths of reborrows; permissions are judged per place (header; registers, key and value of each slot of each pool). AliasModel.v instruments the iterator code of HeldModel.v with the events of each line. A call of next adds a walk of reads and then the reborrows of the item (AliasProg.v, one contract for the five containers). Stacked Borrows, well-behaved: invariant that the latest item's item is on top of the stack of its places (AliasRun.v); undefined: every pointer made before a later &mut to the array is popped (sb_stale). Tree Borrows, well-behaved: invariant that the references on the way to a kept value are Reserved (not used yet) or Active (used since the last call), disjointness of items from C66 (AliasTB.v); undefined: a written reference is Frozen by the next reborrow (tb_stale). Left out: protectors, two-phase borrows, interior mutability (AliasSpec.v). | `C77_dq_same_run`, `C77_dq_sb_streaming`, `C77_dq_sb_late`, `C77_dq_sb_exact`, `C77_dq_tb_reuse`, `C77_dq_tb_phases`, `C77_dq_tb_exact`, `C77_ht_same_run`, `C77_ht_sb_streaming`, `C77_ht_sb_late`, `C77_ht_sb_late_key`, `C77_ht_sb_exact`, `C77_ht_tb_reuse`, `C77_ht_tb_phases`, `C77_ht_tb_exact`, `C77_rb_same_run`, `C77_rb_sb_streaming`, `C77_rb_sb_late`, `C77_rb_sb_late_key`, `C77_rb_sb_exact`, `C77_rb_tb_reuse`, `C77_rb_tb_phases`, `C77_rb_tb_exact`, `C77_av_same_run`, `C77_av_sb_streaming`, `C77_av_sb_late`, `C77_av_sb_late_key`, `C77_av_sb_exact`, `C77_av_tb_reuse`, `C77_av_tb_phases`, `C77_av_tb_exact`, `C77_cb_same_run`, `C77_cb_sb_streaming`, `C77_cb_sb_late`, `C77_cb_sb_exact`, `C77_cb_tb_reuse`, `C77_cb_tb_phases`, `C77_cb_tb_exact`, `C77_sb_collect_refuted`, `C77_tb_again_refuted` |
| C78 | The primitives of Prelude.v, AVLModel.v, CritModel.v and BytesModel.v against a specification on integers and single bits (rust_int, Z.testbit, N.testbit) in ArithProps.v. This is a check on the modelling of Rust's integers, on which all the other theorems rest. | `C78_u32`, `C78_u64`, `C78_i32`, `C78_as_u32`, `C78_as_i32`, `C78_leading_zeros`, `C78_crit_bit_mask`, `C78_round_up` |
| C79 | The tests of StructModel.v and UnitModel.v are programs over records of methods (shape, draining); the tree of the source is one instance (used in C64, C65). Inversion of the monadic programs gives the equivalences; UnitDetectSpec.v has the runs (filled, drained) and edges (hangs) they are stated with. The wrong trees are first_six and idle. | `C79_red_uncle`, `C79_right_right`, `C79_right_left`, `C79_left_left`, `C79_left_right`, `C79_remove_root`, `C79_structural_refuted`, `C79_delete`, `C79_delete_1024`, `C79_delete_2048`, `C79_delete_refuted`, `C79_dq_asserts` |
| C80 | History steps carry their functions (ChangeSpec.v). Hash table: keys are tagged with the functions of the call they came with, the table over tagged keys is one with fixed (unlawful) functions, for which C53 holds, and the relational simulation of C65 takes the tags off (RelProof.v, generalised to tell stored keys from keys passed in). Trees: the steps of C54, which hold for any comparison, are composed. Reversed order: bt_reversed in ChangeTree.v. | `C80_ht_calls`, `C80_ht_iter`, `C80_rb_calls`, `C80_av_calls`, `C80_rb_shape`, `C80_av_shape`, `C80_rb_safe`, `C80_av_safe`, `C80_ht_reopened`, `C80_ht_reopened_insert`, `C80_ht_reopened_remove`, `C80_rb_reversed`, `C80_av_reversed`, `C80_ht_distinct_refuted` |
| C81 | `ContractSpec.v`: `adds_give a is` - successive calls of `add_node` answer the indices `is` and then panic for ever; `left_by` - the state a call leaves, also by panicking. `ContractProof.v`: what is handed out is a walk along register 0 of the slots from `free_list_head`, then the never-used slots (`walk`, deterministic, of length at most 2*MAX_SIZE because every slot popped has register 0 reset to SENTINEL); each misuse changes head or one register, so the new walk is computed from the old one. `C81_any_calls` keeps an invariant weaker than `pool` (bump index in range, registers exist) under arbitrary calls. Refuted: an index in use is never handed out; a panicking call leaves the free list as it was. | `C81_future`, `C81_future_unique`, `C81_free_live`, `C81_free_twice`, `C81_free_next`, `C81_free_next_register`, `C81_free_fresh`, `C81_remove_answer`, `C81_harmless_set`, `C81_harmless_write`, `C81_write_freed`, `C81_size_field`, `C81_stale_registers`, `C81_fresh_registers`, `C81_any_calls`, `C81_no_double_hand_out_refuted`, `C81_panicking_remove_refuted` |
| C82 | `UninitSpec.v`: `as_new step z n reads` - the calls `reads` get the same answers from `z` and `n`, and leave both unchanged. `UninitProof.v`: on a zeroed and on a new structure every call that does not insert answers a fixed `…_none` answer (iterators by induction on the script); the first insertion is computed: `add_node` on the zeroed pool fails after moving `bump_index`, which is the pool of `new()`; the rest is the history from `new()`. Critbit: `add_leaf` allocates a node, then a leaf, each failing once. Refuted: a failed first insertion leaves a new Critbit; a failed insertion fails again when repeated. Not proved: all histories of the Critbit after the lost node slot (only the next insertion). | `C82_alloc`, `C82_dq_reads`, `C82_dq_first`, `C82_dq_late`, `C82_ht_reads`, `C82_ht_first`, `C82_ht_late`, `C82_rb_reads`, `C82_rb_first`, `C82_rb_late`, `C82_av_reads`, `C82_av_first`, `C82_av_late`, `C82_cb_reads`, `C82_cb_first`, `C82_cb_third`, `C82_cb_first_refuted`, `C82_repeat_refuted` |
| C83 | SettleSpec.v: `settled f n`, all about the loops of HashModel/RBModel/AVLModel/CritModel themselves, for arbitrary states. Proof: the next node of a walk is a function of the current node (and of the fixed memory), so a walk longer than the number of slots visits a slot twice and then goes round for ever (pigeonhole). Consequence for the other theorems: `OutOfFuel` of these loops in the models means an endless loop of the code, and nothing else. Exceptions, with witnesses: `rb_valid_loop` (2^n rounds on the memory `ladder n`), `rb_fix_insert_loop`, `rb_fix_remove_loop` (they end after 5 rounds on a wrong tree of 3 nodes); on those three `OutOfFuel` in a wrong memory may also mean a loop that ends later, on right memory C58 excludes it. | `C83_tree_walks`, `C83_red_black`, `C83_avl`, `C83_hash_table`, `C83_hash_table_iterator`, `C83_critbit`, `C83_is_valid_exponential`, `C83_fix_insert_refuted`, `C83_fix_remove_refuted` |
| C84 | AmortModel.v: copies of the operations of RBModel.v that draw every round of the two repair loops from a number carried through the history (`C84_copies`: any number, either out of it or the same answer and tree). AmortCount.v: the count is exact (`C84_count`: each update takes some r rounds, runs out with fewer, leaves n - r of n; `C84_loops`: r is the least number of rounds with which the loop of RBModel.v ends). AmortRB.v: potential of the tree (a black node with two black children 1, with two red children 2, else 0); a round of `_fix_insert` that recolours and a round of `_fix_remove` that moves up lower it by at least one, all the rest of a call raises it by a constant; induction on the history. The potential is at most the number of entries, hence the second theorem. Not proved: that four is the least constant (60 ascending insertions make 157 rounds). | `C84_copies`, `C84_count`, `C84_loops`, `C84_rb_amortised`, `C84_rb_amortised_from` |
| C85 | `looks_in` (MtfSpec.v) is the place of a key in its chain; the chains are those of C53 (`hb_spec`, proved equal to the model's for every `==` and hash). `htn_…` (CostModel.v, of C58) are the models with a limit on the rounds of the loop. `C85_rounds`: with `looks_in` rounds each of the six functions does what it does without limit, with fewer it runs out, so the count is exact (C58 had an upper bound only). `C85_get_mut_twice`: for any calls of `get_mut` the exact numbers of rounds sum to at most `2 · (the sum in any fixed order T') + sharing`, by the number of inversions between the chains and `T'` as potential (Sleator and Tarjan's argument). `C85_twice_least`: for every `a/b < 2` and every function `extra` of MAX_SIZE there are a table and calls that exceed `a/b` times the fixed order plus `extra` (asking in turn for the last key of the chain). `C85_get_refuted`: for `get` no factor will do. Not counted: the rounds of `get` between calls of `get_mut`, and orders that change while the calls go on. | `C85_rounds`, `C85_get_mut_twice`, `C85_twice_least`, `C85_get_refuted` |
| C86 | `no_trace` (UndoSpec.v) compares two runs: the answers of the longer are those of the shorter with the answers to the detour put in, and a `look` at the final states (`get_addr`, for Critbit the value slot of the keys there, for the deque what an iterator yields, which includes slots) is equal. Proof: the slot machine of C61 predicts the slots from the contents alone; two machines that give the same slots to the keys and have the same slots to come (`rel`: the stack of free slots and the slots never used, read as one sequence) stay so under every step, the detour ends in a related machine, and the contents (C13, C19, C27, C33, the chains of C53) are those before it. The trees are the trait calls only: with `remove_root` the statement is false. Refuted, with witnesses: `C86_rb_remove_root_refuted`, `C86_av_root_refuted`, `C86_cb_addr_refuted`, `C86_ht_remove_insert_refuted`, `C86_dq_seqno_refuted`, `C86_dq_full_refuted`. | `C86_rb_insert_remove`, `C86_rb_remove_insert`, `C86_av_insert_remove`, `C86_av_remove_insert`, `C86_cb_insert_remove`, `C86_cb_remove_insert`, `C86_ht_insert_remove`, `C86_dq_push_pop`, `C86_dq_pop_push`, `C86_rb_remove_root_refuted`, `C86_av_root_refuted`, `C86_cb_addr_refuted`, `C86_ht_remove_insert_refuted`, `C86_dq_seqno_refuted`, `C86_dq_full_refuted` |
| C87 | `alike P step step' s s'` (AlikeSpec.v): every sequence of calls satisfying `P` gets the same answers from both; `same_read`: any number of calls of `next` on a fresh iterator yields the same. Every theorem is an equivalence, so the answer equality is also necessary (`capacity`, or for the deque pushing until it panics, shows a difference of capacity). Proof: the simulations behind C13, C19, C27, C31, C53 started at any reachable state, whose contents are recovered from the readings; for the hash table the chain of a bucket is the subsequence of the iteration with that remainder (`chain_is`), hence the table is determined, also without the laws; for `C87_ht_blind` equality of all `get`s is preserved by every call other than iteration and implies equal length. Refuted, with witnesses: `C87_rb_remove_root_refuted`, `C87_ht_buckets_refuted`, `C87_dq_slots_refuted`. | `C87_rb`, `C87_av`, `C87_rb_av`, `C87_cb`, `C87_ht`, `C87_ht_blind`, `C87_dq`, `C87_rb_remove_root_refuted`, `C87_ht_buckets_refuted`, `C87_dq_slots_refuted` |
| C88 | Calls of the trait on RedBlackTree, AVLTree, Critbit, HashTable and of Deque, after any history. `LawSpec.om_law`/`hm_law` list the laws; `apart`, `total` say that calls have different keys and how many slots they may need; `alike` (AlikeSpec, C87) says that no later calls tell two states apart. Proved on the specifications (lists are determined by what is found in them, and each call is a change of what is found for its key: LawOm, LawHash) and carried over by the refinement theorems. | `C88_rb_law`, `C88_rb_alone`, `C88_rb_any_order`, `C88_av_law`, `C88_av_alone`, `C88_av_any_order`, `C88_cb_law`, `C88_cb_alone`, `C88_cb_any_order`, `C88_ht_law`, `C88_ht_alone`, `C88_ht_any_order`, `C88_dq_ends`, `C88_rb_full_refuted`, `C88_cb_overwrite_refuted`, `C88_rb_remove_insert_refuted`, `C88_ht_order_refuted`, `C88_dq_last_refuted` |
| C89 | `drawing` (DrawSpec.v): binary trees of pairs with `inorder`, `tall`, `balanced`, `hang`, none of which mentions the model; `av_reads t i b` reads a drawing off the model's registers with `av_get_field`, `av_get_node`. Invariant proofs of C27 (`wp_rebalance`, `wp_insert_loop`) repeated with the drawing carried along (DrawAv.v): `rebalance` on balanced subtrees moves nothing. Every balanced drawing loses some leaf without losing balance (`take_leaf`), so it can be built leaf by leaf. Height range by induction over the height (`heights_exist`). Nothing of the kind is proved of the red-black tree. | `C89_av_drawing`, `C89_av_shapes`, `C89_av_built`, `C89_av_everywhere`, `C89_av_hang`, `C89_av_heights`, `C89_av_depth_attained`, `C89_av_always_hangs_refuted` |
| C90 | `book_insert`, `book_remove`, `rebalanced` (BookSpec.v) are recursive functions on drawings that mention nothing of the model. The model's `rebalance` walks a stored path upwards; BookRot.v shows that one step of it is `rebalanced` at that node (`wp_heavy_exact`, `wp_step_exact`) and the whole walk is `climb`, the recursion unrolled over the path (nodes that keep their heights are left as they are, `climb_quiet`). BookOps.v: `insert` and `remove` (three cases of removal, the two-children case with the path spliced at the successor). BookMain.v: every other call relabels in place; induction over the history. BookSorted.v: trees from sorted insertions are full left of the right edge (`edged`), descending order by mirror image. | `C90_av_is_book`, `C90_av_insert`, `C90_av_remove`, `C90_book_contents`, `C90_av_sorted`, `C90_av_same_tree` |
| C91 | `hinsert`, `hremove`, `without_root` (HueSpec.v) are recursive functions on painted drawings; of the model HueSpec.v mentions only the getters with which a tree is read (`rb_reads`). HueRot.v: one round of `_fix_insert` is `mended_left`/`mended_right` at the grandparent, one round of `_fix_remove` is `short_left`/`short_right` at the parent; the loops are `hclimb` and `hsettle`, the recursions unrolled over the path to the root. HueOps.v: `insert`, `remove` and `remove_root`, with the three cases of `_remove_tree_node`. HueMain.v: every other call changes values in place (`restocked`); induction over the history. `C91_rb_red_child_refuted` records where code and textbooks part. | `C91_rb_is_hue`, `C91_rb_insert`, `C91_rb_remove`, `C91_rb_remove_root`, `C91_hue_contents`, `C91_rb_same_tree`, `C91_rb_red_child_refuted` |
| C92 | `C91_rb_is_hue` turns the claim into one about `hue_tree`. `proper_facts`: least number of pairs of a red-black tree of given height, by induction over the tree, with red roots treated along. `stair`, `node` (StairMain.v): what ascending insertions build, read as a 2-3-4 tree whose right edge has nodes of two or three pairs (the topmost: one to three) and which is black and full left of it; one more key adds one like a counter with carry (`node_grow`). Descending order by mirror image (`flipped_insert`). | `C92_rb_height`, `C92_rb_sorted` |
| C93 | MethModel.v writes the provided methods over any `next` as core::iter does (try_fold, fold, advance_by, and the others through these). MethMain.v: from the theorems on scripts of next/next_back (C09, C20, C28, C34, C53) an iterator is shown to simulate the rest of the sequence step by step (`reads_next`, `reads_back`), so any loop over it, however the answers steer it, does what it does on the list (`ask_ok`). Only `iter()`; `iter_mut` (whose closures may write) is C26 and C66. Not modelled: predicates with effects, adapters other than `rev` and `by_ref` (`map`, `filter`, `zip`, `take`, … are loops over the same two functions); `size_hint` is Rust's default (0, None). | `C93_dq_methods`, `C93_rb_methods`, `C93_av_methods`, `C93_cb_methods`, `C93_ht_methods`, `C93_rb_av_eq` |
| C94 | UnivSpec (keys held after a history, pairs that share a bucket, universal families of Carter and Wegman, two families); rounds of the loop as in C85 (CostModel). Proof: the chains of C53 hold each key in its bucket and keep, up to order, the keys the calls alone determine; the looks at a chain of distinct keys are 1 + 2 + … in any order; double counting over the family; Cauchy's inequality for the lower bound; families: linear functions of the digits for a prime number of buckets, pairs of functions for a product. That the hasher of the code (SipHash with fixed keys) is not one of a family chosen at random is outside the theorem, so for the code as it is the theorem says what a hasher with random keys would give | `C94_keys`, `C94_total`, `C94_average`, `C94_least`, `C94_bad_keys`, `C94_family_exists`, `C94_linear_family`, `C94_product_family` |
| C95 | ArrangeSpec (`arranged`), on top of the chains of C53 and their invariants of C94. Only if: pairs are in the chain of their bucket, keys distinct, never more than the capacity. If: inserting the pairs from the last to the first puts each at the front of its chain. Orders: moving the pairs to the front from the last to the first; after the calls for a suffix every chain starts with the part of the suffix that belongs to it. Slots, generation of the free list and the buckets array are not part of the statement (they are not visible through the trait) | `C95_ht_reachable`, `C95_ht_get_mut_orders` |
| C96 | DealSpec (`dealt`), on top of the machine of C61 that predicts the slots. Proof: pop_front then push_back turns the sequence round; two pops and two pushes take the second to the back past the first; so any one can be moved behind any prefix, hence every permutation; the slots to be given back are taken to the end and popped. Only if: invariant of the machine. The sequence number is not part of the statement (C11 has it) | `C96_dq_layouts`, `C96_dq_memories` |
| C97 | SightSpec (`seen`), on top of the refinement of C08 - C11. Only if: invariant of the histories of the list specification (parity, length at most the count of changes); 2^64 is even, so the parity survives wrapping. If: push and pop again as often as needed, then push the values; without overflow checks and with s below the length, go round 2^64 once | `C97_dq_sights`, `C97_dq_parity` |

## 4. Claims found false of the code

Each is a theorem `…_refuted` with a concrete witness evaluated in the model; the statements in `properties.jsonl` say so.

| id | finding |
|---|---|
| C16 | HashTable `iter().rev()` is always empty: `next_back` returns None |
| C35 | `Critbit::insert` of a key already present fails (None) when the tree is full |
| C37 | a Critbit node address changes when another key is inserted or removed |
| C38, C48 | `Critbit::get_addr` on an empty tree panics |
| C40 | with capacity 0, `insert` of RedBlackTree, AVLTree and Critbit panics instead of returning None |
| C42 | `load_bytes`/`load_mut_bytes` on a slice that is too short panics instead of reporting an error |
| C45 | consequently a full Critbit is not interchangeable with the other maps |
| C46 | `is_valid_red_black_tree` accepts trees that are not red-black trees (nodes with one child are not counted as path ends) |
| C47 | AVLTree treats incomparable keys (`partial_cmp` None) as equal |
| C50 | each container accepts type parameters that leave padding bytes in a `Pod` struct |
| C51 | after 2^64 pushes and pops the Deque's sequence number overflows: a panic with overflow checks, a wrap without |
| C55 | the Critbit fuzz target fails on an upsert that meets a full tree (C35) |
| C56 | on bytes not written by this crate: Critbit's `iter_mut` can leave the node array; mutable iterators can yield one element twice; lookups and iterators can run forever |
| C60 | the shape of a red-black or AVL tree, and the slots a Critbit tree uses, depend on the history (a contrast, not a defect) |
| C63 | the test `simulate` fails with correct maps: for the trees when fewer than three entries are left after its hundred rounds, for every map when the generator repeats a key; for HashTable its last check compares nothing (C16) |
| C67 | growing a structure works only if the registers of the new nodes are zero (the allocator never clears a node it has not used before), and, in bytes, not for Critbit's NUM_NODES |
| C69 | the removal benchmarks insert once outside the timed closure; every timed pass but the first removes from an empty map |
| C70 | `get_node_mut` gives `&mut` access to the key: a key that does not take the old one's place makes entries unfindable, silently (and `is_valid_red_black_tree` stays true) |
| C71 | with MAX_SIZE = 0 every panicking Critbit insertion loses a node; a HashTable with NUM_BUCKETS = 0 is accepted, but every keyed call and every iteration panics |
| C74 | `(MAX_SIZE + 1) as u32`: with MAX_SIZE ≥ 2^32 (2^32 − 1 with overflow checks) an allocator panics before it is full, with 2^32 at the first node |
| C76 | the fuzz targets accept a map that never removes and whose iterators are empty; `simulate` never calls `get`, and for HashTable it accepts a map that stores only a number |
| C77 | each item of `iter_mut` is made through `nodes.as_mut_ptr()`, a new `&mut` to the whole array: using an earlier item after a later call (`iter_mut().collect()`) is undefined behaviour under Stacked Borrows; using it before and after is so under Tree Borrows too |
| C79 | the deletion tests of red_black_tree.rs accept a tree whose `insert` and `remove` do nothing; the structural tests accept one that stores no values and stops working at the seventh insertion |
| C80 | the buckets of a stored HashTable depend on `DefaultHasher`, whose algorithm the standard library does not fix: a program built with another release does not find keys whose bucket moved, inserts them a second time and cannot remove them |
| C81 | `remove_node` of a slot that is already free is not noticed: the slot is handed out twice and all other free slots are lost; on an empty pool it panics (overflow checks) after having put the index on the free list, or sets `size` to `u64::MAX` |
| C82 | an insertion into a zeroed buffer without `initialize` panics once and thereby initializes the structure (a repeated call succeeds, `initialize` then panics); Critbit panics twice and loses a node slot |
| C83 | `is_valid_red_black_tree` is no check for buffers from elsewhere: on a memory of n nodes whose two children are the next node it takes 2^n rounds (and it may run for ever, C56) |
| C85 | `get` does not move what it finds: the order of the chains adapts to the calls of `get_mut` only, and repeated `get`s of a deep key pay its depth each time |
| C86 | a key inserted and removed again is not quite forgotten: the trees may keep another shape (so `remove_root` takes another pair), Critbit's node addresses (what `insert` returns and `get_addr` gives) of other keys may differ afterwards, and the deque's sequence number counts both calls |
| C87 | two red-black trees with the same contents differ in what `remove_root` takes; two hash tables with the same pairs in the same order but another number of buckets differ in later iterations; slots (addresses) are never determined by the contents |
| C88 | Critbit with one place left keeps the first of two values inserted for a new key (the map is then full, and the second `insert` is refused), where the other maps keep the second; on a full map `remove` of one key and `insert` of another do not change places |
| C89 | an insertion that would unbalance the tree turns it (1, 2, then 3): `C89_av_always_hangs_refuted` shows that the condition of `C89_av_hang` is needed |
| C90 | none; the code agrees with the textbook in every rotation, including the choice of a single rotation when both halves of the heavy side are equally high, and of the next key (not the previous one) for a removed node with two children |
| C91 | removing a black node with a red child, `_fix_remove` repairs before it looks at the colour of the child (red_black_tree.rs:635–671): the child stays red, and nodes elsewhere are recoloured or turned, where the textbooks paint the child black and stop. The result is a red-black tree (`C91_hue_contents`), so this costs work, not correctness: 4, 2, 6, 1 inserted and 2 removed gives two red leaves instead of two black ones (`C91_rb_red_child_refuted`) |
| C92 | keys inserted in ascending or descending order, the common case of growing ids or timestamps, are the worst case for the height of RedBlackTree and the best for AVLTree (C90); with about n pairs, 2 log2 n against log2 n levels |
| C93 | `rev()`, `nth_back`, `rfind`, `rfold`, … on `HashTable::iter()` compile and see an empty table (as C16); nothing else |
| C94 | the hasher is `DefaultHasher::new()`, whose keys are fixed: the average of C94 is over the choice of a hash function, which the code does not make, so whoever chooses the keys can choose keys that share one bucket (`C94_bad_keys`). A hasher with keys stored in the table would have the bound of `C94_average` if its functions form a universal family |
| C95 | `get_mut` changes the order of iteration of a HashTable: any order in the buckets can be reached by lookups alone, so code that iterates must not rely on the order of insertion (documented nowhere) |
| C96 | none |
| C97 | none |

Also seen, outside the numbered claims: `HashTable` with `NUM_BUCKETS = 0` panics on every keyed call; the layout assertions reject `T = u32` in
NodeAllocator and 16-aligned `T` in Deque; `initialize` checks only `size`, `bump_index` and `free_list_head`.

## 5. Trusted base

* The kernel of Coq 8.16.1 (checked again by `coqchk`), its standard library and std++.
* `Print Assumptions` is printed under every property theorem. **Every one answers "Closed under the global context"**: no axiom,
  neither of this development nor of a library, is used. (`coqchk` lists 7 axioms of `Coq.ssr.ssrunder`, which are
  loaded with std++ and used by no theorem.) There is no `Admitted`, no `Axiom`, no `Parameter`, no switched-off check.
* The reading of `/repo` recorded in the comments of the `*Model.v`, `*Api.v` and `BytesModel.v` files; the semantics of Rust integers, arrays,
  panics and `repr(C)` as encoded in `Prelude.v` and `BytesModel.v`; the behaviour of bytemuck 1.13 stated there.

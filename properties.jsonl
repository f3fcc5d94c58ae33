{"id": "C01", "title": "NodeAllocator never hands out a live index", "statement": "Every index returned by add_node lies in 1..=MAX_SIZE, is not SENTINEL, and is not currently allocated, as long as callers only remove indices that are allocated.", "quantifier": "every MAX_SIZE, NUM_REGISTERS and every history of add_node / remove_node / register writes on allocated indices", "why_tests_cant": "the free list and bump pointer interact over unboundedly long histories; a test samples a few", "anchors": ["src/node_allocator.rs: add_node, remove_node"]}
{"id": "C02", "title": "NodeAllocator fails exactly when full, and leaks no slot", "statement": "add_node succeeds iff fewer than MAX_SIZE indices are allocated; otherwise it panics and the allocator (header and every node) is unchanged. So after any churn all MAX_SIZE slots remain usable.", "quantifier": "every MAX_SIZE and every history; in particular every order of frees and re-allocations", "why_tests_cant": "a leaked slot shows only after a specific long sequence", "anchors": ["src/node_allocator.rs: add_node (265-280)"]}
{"id": "C03", "title": "NodeAllocator.size is the number of allocated nodes", "statement": "The public size field always equals the number of allocated, not yet removed nodes, never under- or overflows and never exceeds MAX_SIZE.", "quantifier": "every history of add_node / remove_node on allocated indices", "why_tests_cant": "quantifies over all histories", "anchors": ["src/node_allocator.rs: size, add_node, remove_node"]}
{"id": "C04", "title": "NodeAllocator operations touch only their node; LIFO reuse", "statement": "add_node stores exactly the given value, leaves value and registers of all other allocated nodes untouched and returns a node whose free-list register is SENTINEL; remove_node(i) returns i's value, keeps every other allocated node untouched, and the next add_node returns i again. remove_node(SENTINEL) is a no-op returning None.", "quantifier": "every reachable allocator state, every allocated index, every value", "why_tests_cant": "a frame property over every other node and every state", "anchors": ["src/node_allocator.rs: add_node, remove_node"]}
{"id": "C05", "title": "Initialisation", "statement": "initialize on an all-zero structure yields exactly the structure built by new(); initialize on any structure that is already initialised (or in use) panics and changes nothing. This holds for the allocator and all five containers.", "quantifier": "every MAX_SIZE and every reachable state of every container", "why_tests_cant": "the re-initialisation guard must hold in every reachable state", "anchors": ["src/node_allocator.rs: initialize, default", "src/deque.rs: initialize", "src/hash_table.rs: initialize", "src/red_black_tree.rs: initialize", "src/avl_tree.rs: initialize", "src/critbit.rs: initialize"]}
{"id": "C06", "title": "Register graph operations are SENTINEL-safe and local", "statement": "connect(i,j,ri,rj) makes get_register(i,ri)=j and get_register(j,rj)=i when both exist, disconnect / clear_register make them SENTINEL, set_register sets exactly one register; with a SENTINEL argument the corresponding side is a no-op and get_register(SENTINEL,_) = SENTINEL; no other register or any value changes.", "quantifier": "all indices, registers and allocator states", "why_tests_cant": "a locality (frame) property over all states", "anchors": ["src/node_allocator.rs: connect, disconnect, set_register, get_register, clear_register"]}
{"id": "C07", "title": "Deque behaves like a double-ended queue", "statement": "For every sequence of push_front/push_back/pop_front/pop_back/front/back/len/is_empty calls the results are those of the mathematical sequence (VecDeque) with capacity MAX_SIZE; no call panics unless it pushes onto a full deque, and no call loops.", "quantifier": "every MAX_SIZE (with MAX_SIZE+1 < 2^32) and every finite history of API calls starting from a fresh structure", "why_tests_cant": "all interleavings of pushes and pops at both ends, at all sizes", "anchors": ["src/deque.rs: push_back, push_front, pop_front, pop_back, _remove, front, back, len"]}
{"id": "C08", "title": "Deque push on a full deque", "statement": "push_back / push_front succeed iff len < MAX_SIZE; on a full deque they panic and leave the contents, links and sequence number unchanged.", "quantifier": "every reachable full deque", "why_tests_cant": "every way of filling the deque", "anchors": ["src/deque.rs: push_back, push_front", "src/node_allocator.rs: add_node"]}
{"id": "C09", "title": "Deque iteration, from both ends, in any interleaving", "statement": "iter() driven by any interleaving of next and next_back yields every element exactly once, next in front-to-back order and next_back in back-to-front order, with the slot index it is stored at, then None forever; an iterator never panics, loops or reads outside the buffer.", "quantifier": "every reachable deque and every finite sequence of next/next_back calls", "why_tests_cant": "all interleavings on all contents", "anchors": ["src/deque.rs: DequeIterator::next, next_back"]}
{"id": "C10", "title": "Deque iter_mut writes exactly what was yielded", "statement": "A caller that writes through the references yielded by iter_mut (any interleaving of next/next_back) changes exactly these elements to the written values; order, length and other elements are unchanged, and no two yielded references alias.", "quantifier": "every reachable deque, every interleaving, every written value", "why_tests_cant": "the references come from unsafe pointer arithmetic; aliasing is not testable", "anchors": ["src/deque.rs: DequeIteratorMut::next, next_back"]}
{"id": "C11", "title": "Deque sequence_number counts mutations", "statement": "sequence_number equals the number of successful pushes and pops since creation (mod 2^64 without overflow checks), and is changed by nothing else.", "quantifier": "every MAX_SIZE (with MAX_SIZE+1 < 2^32) and every finite history of API calls starting from a fresh structure", "why_tests_cant": "all histories", "anchors": ["src/deque.rs: sequence_number"]}
{"id": "C12", "title": "Deque links", "statement": "Walking get_next from head visits the elements front to back and ends in SENTINEL at tail; get_prev is its exact inverse; head = SENTINEL iff tail = SENTINEL iff the deque is empty.", "quantifier": "every reachable deque", "why_tests_cant": "structural invariant of all reachable states", "anchors": ["src/deque.rs: get_next, get_prev, head, tail"]}
{"id": "C13", "title": "HashTable behaves like a map", "statement": "For every hash function and every history of insert/remove/get/get_mut/contains/len/... every result equals that of a finite map with capacity MAX_SIZE; nothing panics, loops or indexes out of bounds.", "quantifier": "every deterministic hash function consistent with ==, every NUM_BUCKETS > 0, every MAX_SIZE, every history", "why_tests_cant": "all collision patterns and all histories", "anchors": ["src/hash_table.rs: _insert, _remove, get, get_mut, contains"]}
{"id": "C14", "title": "HashTable insert at capacity", "statement": "When len = MAX_SIZE, insert of a new key returns None and changes nothing; insert of a present key replaces its value and succeeds.", "quantifier": "every reachable full table, every key", "why_tests_cant": "every full table and bucket shape", "anchors": ["src/hash_table.rs: _insert"]}
{"id": "C15", "title": "HashTable iteration visits every pair exactly once", "statement": "iter() / iter_mut() driven by next yields exactly the live pairs, each once, then None forever.", "quantifier": "every reachable table, every hash function", "why_tests_cant": "all bucket distributions", "anchors": ["src/hash_table.rs: HashTableIterator::next, HashTableIteratorMut::next"]}
{"id": "C16", "title": "HashTable reverse iteration", "statement": "HashTable::iter is a DoubleEndedIterator but next_back always yields None, on every table (so iter().rev() visits nothing, unlike the other maps). Expected: iter().rev() visits every live pair; this expectation is refuted.", "quantifier": "every reachable table", "why_tests_cant": "the crate's own fuzz target runs IterRev but only checks the yielded items", "anchors": ["src/hash_table.rs: HashTableIterator::next_back"]}
{"id": "C17", "title": "HashTable get_mut", "statement": "get_mut returns the value of the key iff present; writing through it changes that key's value only; the move-to-front it performs changes no other observable lookup, nor len, nor any address.", "quantifier": "every reachable table, key, and written value", "why_tests_cant": "the relinking must be right for every position in every chain", "anchors": ["src/hash_table.rs: get_mut"]}
{"id": "C18", "title": "HashTable addresses are stable", "statement": "The index returned by insert is the key's get_addr, get_node at it returns the pair, and it stays the same until that key is removed, whatever else is inserted, removed or accessed with get_mut.", "quantifier": "every history", "why_tests_cant": "all histories between insertion and removal", "anchors": ["src/hash_table.rs: get_addr, get_node"]}
{"id": "C19", "title": "RedBlackTree behaves like a map", "statement": "For every totally ordered key type and every history of insert/remove/get/get_mut/contains/len/... every result equals that of a finite map with capacity MAX_SIZE; nothing panics (no failed assert, no disconnected-node panic, no out-of-bounds), loops, or overflows.", "quantifier": "every MAX_SIZE (with MAX_SIZE+1 < 2^32) and every finite history of API calls starting from a fresh structure with MAX_SIZE > 0", "why_tests_cant": "rebalancing has many cases reached only by particular histories", "anchors": ["src/red_black_tree.rs: _insert, _fix_insert, _remove, _remove_tree_node, _fix_remove, _rotate_dir, _transplant, get_addr"]}
{"id": "C20", "title": "RedBlackTree iteration is sorted, from both ends, in any interleaving", "statement": "iter() driven by any interleaving of next / next_back yields every pair exactly once, next in ascending and next_back in descending key order, meeting in the middle, then None forever.", "quantifier": "every reachable tree, every interleaving", "why_tests_cant": "all trees and interleavings", "anchors": ["src/red_black_tree.rs: RedBlackTreeIterator::next, next_back"]}
{"id": "C21", "title": "RedBlackTree is always a valid red-black tree", "statement": "After every operation: root black, no red node has a red child, every path from the root to a missing child has the same number of black nodes; and is_valid_red_black_tree() returns true.", "quantifier": "every reachable tree", "why_tests_cant": "the fuzz target checks it on sampled histories only", "anchors": ["src/red_black_tree.rs: is_valid_red_black_tree, _fix_insert, _fix_remove"]}
{"id": "C22", "title": "RedBlackTree search depth is logarithmic", "statement": "Every root-to-node path has at most 2*log2(len+1) nodes, so lookups take at most that many iterations.", "quantifier": "every reachable tree", "why_tests_cant": "a bound for all sizes", "anchors": ["src/red_black_tree.rs: get_addr, _fix_insert, _fix_remove"]}
{"id": "C23", "title": "RedBlackTree get_min / get_max", "statement": "get_min / get_max return the pair with the smallest / largest key and None iff the tree is empty; get_min_index / get_max_index are their addresses.", "quantifier": "every reachable tree", "why_tests_cant": "all trees", "anchors": ["src/red_black_tree.rs: get_min, get_max, _find_min, _find_max"]}
{"id": "C24", "title": "RedBlackTree addresses are stable", "statement": "The index returned by insert is the key's address (get_addr), get_node at it returns the pair, and it stays so until the key is removed, whatever other keys are inserted or removed.", "quantifier": "every history", "why_tests_cant": "rotations and transplants must never move contents, in any case", "anchors": ["src/red_black_tree.rs: get_addr, get_node, _transplant"]}
{"id": "C25", "title": "RedBlackTree remove_root", "statement": "remove_root removes exactly one pair that was in the tree and returns it; None iff empty; all map and balance properties are preserved.", "quantifier": "every reachable tree", "why_tests_cant": "all trees", "anchors": ["src/red_black_tree.rs: remove_root"]}
{"id": "C26", "title": "Tree and map iter_mut write exactly what was yielded", "statement": "A caller writing through references yielded by iter_mut (any interleaving of next / next_back) of a RedBlackTree, AVLTree, Critbit or HashTable changes exactly these keys' values; keys, order, shape and other values are unchanged; no two yielded references alias.", "quantifier": "every reachable structure, interleaving, written value", "why_tests_cant": "references come from unsafe pointer arithmetic", "anchors": ["src/red_black_tree.rs: RedBlackTreeIteratorMut", "src/avl_tree.rs: AVLTreeIteratorMut", "src/critbit.rs: CritbitIteratorMut", "src/hash_table.rs: HashTableIteratorMut"]}
{"id": "C27", "title": "AVLTree behaves like a map", "statement": "For every totally ordered key type and every history of insert/remove/get/get_mut/contains/len/... every result equals that of a finite map with capacity MAX_SIZE; nothing panics, loops or overflows.", "quantifier": "every MAX_SIZE (with MAX_SIZE+1 < 2^32) and every finite history of API calls starting from a fresh structure with MAX_SIZE > 0", "why_tests_cant": "the removal path splice and rebalancing have many cases", "anchors": ["src/avl_tree.rs: _insert, _remove, rebalance, left_rotate, right_rotate, get"]}
{"id": "C28", "title": "AVLTree iteration is sorted, from both ends, in any interleaving", "statement": "As C20, for AVLTree.", "quantifier": "every reachable tree, every interleaving", "why_tests_cant": "all trees and interleavings", "anchors": ["src/avl_tree.rs: AVLTreeIterator::next, next_back"]}
{"id": "C29", "title": "AVLTree is always balanced and its stored heights are exact", "statement": "After every operation, at every node the heights of the two subtrees differ by at most one and the node's height register equals the height of its subtree.", "quantifier": "every reachable tree", "why_tests_cant": "the repository has no validity check for AVL trees at all", "anchors": ["src/avl_tree.rs: rebalance, update_height, balance_factor"]}
{"id": "C30", "title": "AVLTree search depth is logarithmic", "statement": "Every root-to-node path of a tree with n keys has at most 2*log2(n+1) nodes (and the sharper Fibonacci bound), so lookups take at most that many iterations; the u32/i32 height arithmetic never overflows.", "quantifier": "every reachable tree", "why_tests_cant": "a bound for all sizes", "anchors": ["src/avl_tree.rs: rebalance, balance_factor"]}
{"id": "C31", "title": "AVLTree get_min / get_max / find_min / find_max", "statement": "They return the pair (value) with the smallest / largest key, None iff empty.", "quantifier": "every reachable tree", "why_tests_cant": "all trees", "anchors": ["src/avl_tree.rs: find_min_index, find_max_index, find_min, find_max, get_min, get_max"]}
{"id": "C32", "title": "AVLTree addresses are stable", "statement": "As C24, for AVLTree.", "quantifier": "every history", "why_tests_cant": "all histories", "anchors": ["src/avl_tree.rs: get_addr, _remove"]}
{"id": "C33", "title": "Critbit behaves like a map below capacity", "statement": "For every history of insert/remove/get/get_mut/contains/len/... over u128 keys every result equals that of a finite map, except that insert on a full tree returns None; nothing panics (all internal asserts hold), loops or indexes out of bounds.", "quantifier": "every MAX_SIZE > 0, every NUM_NODES >= 2*MAX_SIZE, every history over all 2^128 keys", "why_tests_cant": "prefix/critical-bit logic over 128-bit keys", "anchors": ["src/critbit.rs: _insert, _remove, get, get_mut, duplicate, replace_node, migrate, remove_leaf"]}
{"id": "C34", "title": "Critbit iteration is sorted, from both ends, in any interleaving", "statement": "As C20, for Critbit (ascending unsigned order of u128).", "quantifier": "every reachable tree, every interleaving", "why_tests_cant": "all trees and interleavings", "anchors": ["src/critbit.rs: CritbitIterator::next, next_back"]}
{"id": "C35", "title": "Updating a present key succeeds on a full map", "statement": "insert of a key that is already present replaces its value and returns its address even when len = capacity, for RedBlackTree, AVLTree and HashTable. For Critbit this is refuted: at capacity it returns None and changes nothing; below capacity it updates.", "quantifier": "every reachable full map (HashTable, RedBlackTree, AVLTree, Critbit)", "why_tests_cant": "tests never insert an existing key into a full map", "anchors": ["src/critbit.rs: _insert (413-416)", "src/red_black_tree.rs: _insert", "src/avl_tree.rs: _insert", "src/hash_table.rs: _insert"]}
{"id": "C36", "title": "Critbit get_min / get_max", "statement": "They return the pair with the smallest / largest key, None iff empty.", "quantifier": "every reachable tree", "why_tests_cant": "all trees", "anchors": ["src/critbit.rs: find_min, find_max, get_min, get_max"]}
{"id": "C37", "title": "Critbit node addresses are stable", "statement": "Critbit: the index returned by insert is the key's get_addr right after the call, calls that leave the key set unchanged do not move any node, and values stay in their leaf-pool slot. Expected as for the other maps: the index stays the key's address until removal; this is refuted (inserting or removing another key moves the leaf's node).", "quantifier": "every history", "why_tests_cant": "needs a history in which another key splits or merges at this leaf", "anchors": ["src/critbit.rs: _insert, duplicate, migrate, get_addr"]}
{"id": "C38", "title": "Critbit get_addr", "statement": "On every non-empty Critbit, get_addr returns the address of a leaf holding the key iff the key is present, and SENTINEL otherwise. Expected also on the empty tree; this is refuted: get_addr panics on every empty tree.", "quantifier": "every reachable tree and key", "why_tests_cant": "includes the empty tree", "anchors": ["src/critbit.rs: get_addr"]}
{"id": "C39", "title": "Critbit never exhausts its node pool", "statement": "With NUM_NODES >= 2*MAX_SIZE a tree with n > 0 keys uses exactly 2n-1 pool nodes, so insert never panics for lack of nodes and no node is ever leaked.", "quantifier": "every history", "why_tests_cant": "leaks show only over long histories", "anchors": ["src/critbit.rs: add_leaf, duplicate, migrate, remove_leaf"]}
{"id": "C40", "title": "Insert on a full map", "statement": "insert of an absent key into a map with len = capacity > 0 returns None and changes nothing observable. With capacity 0 HashTable also returns None; for RedBlackTree, AVLTree and Critbit that is refuted: they panic.", "quantifier": "every reachable full map of each kind, including MAX_SIZE = 0", "why_tests_cant": "the MAX_SIZE = 0 instance is not tested", "anchors": ["src/red_black_tree.rs: _insert (474-481)", "src/avl_tree.rs: _insert (279-285)", "src/critbit.rs: _insert (407-412)", "src/hash_table.rs: _insert"]}
{"id": "C41", "title": "Reload", "statement": "A structure viewed again from its bytes (load_bytes / load_mut_bytes on the buffer it lives in) is the same structure: every later call gives the same results. So any history may be cut at any point by dropping the reference and reloading.", "quantifier": "every reachable state, every cut point", "why_tests_cant": "every state and cut point", "anchors": ["src/node_allocator.rs: ZeroCopy::load_bytes, load_mut_bytes, repr(C) layout"]}
{"id": "C42", "title": "Loading from a slice of the wrong size", "statement": "load_bytes / load_mut_bytes on a longer slice use exactly the first size_of bytes. On a slice that is too short they panic, always; the expectation that they return None there (as their Option result suggests) is refuted.", "quantifier": "all slices", "why_tests_cant": "all lengths", "anchors": ["src/node_allocator.rs: ZeroCopy (59-69)"]}
{"id": "C43", "title": "new_from_slice on a zeroed buffer equals new()", "statement": "new_from_slice on a zeroed, large enough, aligned buffer yields a structure equal to new(); on a buffer holding an initialised structure it panics without changing it.", "quantifier": "every MAX_SIZE / layout", "why_tests_cant": "all sizes and all contents", "anchors": ["src/node_allocator.rs: FromSlice, initialize"]}
{"id": "C44", "title": "Index / IndexMut", "statement": "map[&k] returns the same value as get(k) when the key is present and panics iff it is absent.", "quantifier": "every reachable map and key", "why_tests_cant": "all states", "anchors": ["src/red_black_tree.rs: Index, IndexMut", "src/avl_tree.rs: Index, IndexMut", "src/critbit.rs: Index, IndexMut", "src/hash_table.rs: Index, IndexMut"]}
{"id": "C45", "title": "Ordered maps are interchangeable", "statement": "RedBlackTree, AVLTree (and Critbit below capacity) given the same call sequence return the same observable results (everything but addresses).", "quantifier": "every call sequence", "why_tests_cant": "all sequences", "anchors": ["src/red_black_tree.rs", "src/avl_tree.rs", "src/critbit.rs"]}
{"id": "C46", "title": "is_valid_red_black_tree decides red-black validity", "statement": "is_valid_red_black_tree accepts exactly the empty tree and the trees with a root that is not red, no red node with a red child and the same number of black nodes on all paths from the root to childless nodes. So it accepts every red-black tree with a black root, and is right on trees without one-child nodes. Expected: it decides red-black validity; this is refuted (paths ending at a missing child of a one-child node are not counted).", "quantifier": "every tree that can be loaded from bytes", "why_tests_cant": "needs an ill-formed tree", "anchors": ["src/red_black_tree.rs: is_valid_red_black_tree"]}
{"id": "C47", "title": "AVLTree accepts every PartialOrd key type", "statement": "AVLTree only asks for PartialOrd. Expected: with incomparable keys (e.g. NaN) the tree still never confuses two different keys; this is refuted: an incomparable key is taken for a present one.", "quantifier": "every PartialOrd instance", "why_tests_cant": "tests use integer keys", "anchors": ["src/avl_tree.rs: K: PartialOrd, _insert, get"]}
{"id": "C48", "title": "Lookups are pure and agree with each other", "statement": "get, contains, get_addr (and HashTable's inherent contains) never modify the structure and always agree: contains(k) = get(k).is_some() = (get_addr(k) != SENTINEL), for every map except the empty Critbit, where it is refuted (get_addr panics).", "quantifier": "every reachable map and key", "why_tests_cant": "all states", "anchors": ["src/red_black_tree.rs", "src/avl_tree.rs", "src/critbit.rs", "src/hash_table.rs"]}
{"id": "C49", "title": "Layout assertions depend on types only", "statement": "Whether the layout assertions of NodeAllocator (assert_proper_alignemnt) and RedBlackTree (assert_proper_alignment) pass depends only on size and alignment of the type parameters: at every properly aligned address they pass exactly if T is zero-sized or at least as large as the allocator's alignment, its alignment is at most 16, and the registers end on a multiple of it. So construction for given types always panics or never does.", "quantifier": "all sizes and alignments of T, K, V, all addresses", "why_tests_cant": "tests instantiate a handful of types", "anchors": ["src/node_allocator.rs: assert_proper_alignemnt (208-240)", "src/red_black_tree.rs: assert_proper_alignment (266-271)"]}
{"id": "C50", "title": "No padding bytes", "statement": "Expected: for all type parameters that pass the layout assertions the structs have no padding bytes, as unsafe impl Pod requires. This is refuted for each container; conditions on the type parameters under which size_of is the sum of the field sizes are proved.", "quantifier": "all sizes and alignments of T, K, V, all capacities", "why_tests_cant": "tests instantiate a handful of types", "anchors": ["src/*.rs: unsafe impl Pod", "src/red_black_tree.rs: assert_proper_alignment, TODO (267)"]}
{"id": "C51", "title": "Overflow checks make no difference", "statement": "On every structure, even a corrupted one, a call in a build with overflow checks either panics or has exactly the effect and answer it has in a build without them. On every structure reached from a new one by calls as allowed by the other properties (Deque: fewer than 2^64 calls), all answers, panics and resulting structures are the same in every build, for the allocator and the five containers. Without the bound on the calls it is refuted for the Deque (sequence number).", "quantifier": "all histories of calls, all capacities and type parameters, all pairs of builds; first part: all states", "why_tests_cant": "tests run a few histories in one build", "anchors": ["src/node_allocator.rs", "src/deque.rs: sequence_number", "src/hash_table.rs", "src/red_black_tree.rs", "src/avl_tree.rs", "src/critbit.rs"]}
{"id": "C52", "title": "pretty_print prints every key once, in tree order", "statement": "RedBlackTree::pretty_print terminates without panic and prints nothing for an empty tree. Otherwise it prints, for exactly the tree in the registers, one line per node, a node before its left subtree before its right subtree: a bar per level above, the connector (none for the root, a tee for a left child with a right sibling, a corner otherwise), the key, in red exactly if the node is red; then an empty line. After any history the keys of that tree are those of the map.", "quantifier": "all histories, key types, Debug formattings; and all structures whose registers spell out a finite tree", "why_tests_cant": "no test looks at the printed text", "anchors": ["src/red_black_tree.rs: pretty_print (229-264)"]}
{"id": "C53", "title": "HashTable: exact order of the chains, whatever == and the hash do", "statement": "Every history of calls on a new HashTable gets exactly the answers of NUM_BUCKETS chains: a lookup walks the chain of hash(k) % NUM_BUCKETS and stops at the first equal key; insert updates the pair found in place (keeping its key), else puts the pair at the front of its chain if fewer than MAX_SIZE pairs are stored, else refuses; remove takes the first pair found out; get_mut/index_mut move the pair found to the front of its chain; iteration visits the chains in bucket order. This holds for every == and every hash function, including ones that break the contracts of Eq and Hash: then too no call is undefined behaviour, loops forever or panics, except Index on a key not found.", "quantifier": "all histories, key and value types, equalities, hash functions, even NUM_BUCKETS > 0, MAX_SIZE + 1 < 2^32", "why_tests_cant": "the fuzz target compares with a HashMap up to order and uses lawful keys only", "anchors": ["src/hash_table.rs: insert, remove, get_mut, get, contains, iter, iter_mut (99-470)"]}
{"id": "C54", "title": "RedBlackTree and AVLTree: behaviour for an arbitrary comparison of keys", "statement": "Whatever functions cmp / partial_cmp of the key type are (not transitive, not antisymmetric, disagreeing with ==, or partial_cmp answering None as for NaN), every history of calls behaves as a binary tree searched with that comparison: a search goes left on Less, right on Greater, stops on Equal (AVLTree: also on None); insert changes the value at the node where the search stops, or adds exactly one pair where it leaves the tree, or refuses when MAX_SIZE pairs are stored; remove takes out exactly the pair at which the search stops; remove_root the pair at the root; iteration, first and last pair are those of the left-to-right order. The tree stays red-black (is_valid is true) or AVL balanced with correct height registers, so searches stay logarithmic; no pair is lost, duplicated or exposed twice; no call is undefined behaviour, runs for ever or panics, except Index on a key not found.", "quantifier": "all histories, key and value types, all comparison functions, 0 < MAX_SIZE, MAX_SIZE + 1 < 2^32", "why_tests_cant": "the tests and fuzz targets use lawful integer keys; unlawful comparisons are an infinite space and their outcome depends on the tree shape", "anchors": ["src/red_black_tree.rs: _insert, _remove, remove_root, get, get_mut", "src/avl_tree.rs: _insert, _remove, get, get_mut, rebalance"]}
{"id": "C55", "title": "The fuzz targets can never find a failure, except the Critbit target on a full tree", "statement": "For every sequence of actions and every sequence of random choices, the fuzz targets of RedBlackTree, AVLTree and HashTable run to the end: no assert_eq, unwrap, index or is_valid_red_black_tree assertion of fuzz/src/lib.rs and of the targets fails, and at the end the harness's vector of keys contains exactly the keys of the map, without repetition. The same holds of the Critbit target as long as no Upsert meets a full tree. An Upsert of a new value that does meet a full Critbit tree fails the harness's assertion, whichever key is picked, because Critbit's insert refuses to update a present key when the tree is full.", "quantifier": "all lists of actions with all random draws, all lawful key types (Critbit: u128), all capacities 0 < MAX_SIZE with MAX_SIZE + 1 < 2^32 (Critbit: NUM_NODES + 1 < 2^32)", "why_tests_cant": "the fuzz targets are the tests; that they cannot fail for any input, and which inputs make the Critbit target fail (1024 distinct keys followed by an upsert), is a statement about all inputs", "anchors": ["fuzz/src/lib.rs: perform_action", "fuzz/fuzz_targets/fuzz_red_black_tree.rs", "fuzz/fuzz_targets/fuzz_avl_tree.rs", "fuzz/fuzz_targets/fuzz_hash_table.rs", "fuzz/fuzz_targets/fuzz_critbit.rs"]}
{"id": "C56", "title": "Memory contents may be anything: no access outside the arrays, except Critbit iter_mut", "statement": "load_mut_bytes accepts any bytes of the right length and alignment. On every such content (registers pointing anywhere, cycles) and for every sequence of calls, no call of NodeAllocator, Deque, HashTable, RedBlackTree or AVLTree (including their mutable iterators, which use raw pointers) and no call of Critbit other than iter_mut accesses memory outside its node array. Critbit's iter_mut does for some contents; on corrupted contents the mutable iterators may also hand out two mutable references to one element, and lookups and iterators may run forever.", "quantifier": "every byte string, every address, every state of the structure, every sequence of calls, every key comparison/hash, both build profiles", "why_tests_cant": "the property is about all memory contents, including ones no sequence of calls produces", "anchors": ["src/deque.rs:253-302", "src/hash_table.rs:459-492", "src/red_black_tree.rs:879-945", "src/avl_tree.rs:757-823", "src/critbit.rs:695-773", "src/node_allocator.rs:54-69"]}
{"id": "C57", "title": "The public navigation functions describe one tree / one set of chains; get_node_mut is get_mut by address", "statement": "After any calls, the public getters of a RedBlackTree (get_node, get_left, get_right, get_parent, get_child, get_dir, is_leaf, is_root, get_color, is_red, is_black, get_addr) all describe one and the same binary tree, which holds exactly the stored pairs in key order; at SENTINEL they answer SENTINEL/black. The getters of a HashTable (bucket heads, get_node, get_next, get_prev, get_addr) and its iterator describe one set of chains, each pair in the chain of its hash. Assigning a value through get_node_mut / get_leaf_mut at the address of a key is the same as assigning it through get_mut of the key (RB, AVL, Critbit), and changes only that value (HashTable).", "quantifier": "every sequence of calls, every node, every direction argument, every key and value type with a total order / a hash agreeing with equality, both build profiles", "why_tests_cant": "parent, child and colour registers must agree at every node after every history of rotations and removals", "anchors": ["src/red_black_tree.rs:325-402", "src/hash_table.rs:226-240", "src/avl_tree.rs:255-261", "src/critbit.rs:221-260"]}
{"id": "C58", "title": "Every loop of every operation is short: 2·log2(len+1) rounds (RB, AVL), 129 (Critbit), one chain (HashTable)", "statement": "After any calls, no loop of insert, remove, remove_root, get, contains, get_addr, get_mut, get_min or get_max (the descent, the repair loops _fix_insert and _fix_remove, the rebalancing of the AVL tree, the searches for a predecessor or an end) goes round more than n times, for every n with (len+1)^2 < 2^n in a RedBlackTree or AVLTree holding len entries; more than 129 times in a Critbit tree of any size; more than c+1 times in a HashTable holding c keys with the bucket of the key. C22, C30 and C38 bound the depth of lookups; this bounds the whole of the mutating operations.", "quantifier": "every sequence of calls, every key and value, every number of entries, every bound n as above, every total order / every hash, both build profiles", "why_tests_cant": "a repair loop that sometimes walks too far or a tree that is unbalanced after a rare history still answers correctly; tests do not count rounds, and on a blockchain the compute budget is a correctness matter", "anchors": ["src/red_black_tree.rs:474-539", "src/red_black_tree.rs:541-722", "src/avl_tree.rs:279-560", "src/critbit.rs:386-494", "src/hash_table.rs:118-334"]}
{"id": "C59", "title": "A panic in the user's comparison, equality or hash leaves the container as it was", "statement": "RedBlackTree, AVLTree and HashTable call user code: Ord::cmp, PartialOrd::lt and gt, PartialEq::eq, Hash::hash. If such a call panics during insert, remove, get, get_mut, contains, [] or []=, in any state of the container, the container is left unchanged (all user code runs before the first write); if none panics the call does what it does with a comparison that never panics. Hence a history in which panics are caught answers and ends exactly as the history of the calls that were not broken off.", "quantifier": "every state (reachable or not), every call, every set of argument pairs on which the user's code panics, different from call to call, both build profiles", "why_tests_cant": "needs panicking key types, and a comparison of the whole memory after a panic at every possible point of every operation", "anchors": ["src/red_black_tree.rs:474-564", "src/red_black_tree.rs:689-706", "src/avl_tree.rs:129-169", "src/avl_tree.rs:279-346", "src/avl_tree.rs:541-560", "src/hash_table.rs:118-169", "src/hash_table.rs:242-334"]}
{"id": "C60", "title": "The shape of a Critbit tree is the radix tree of its contents", "statement": "After any history of calls the nodes of a Critbit tree reachable from its root, with their prefix lengths, keys and values, form the binary radix tree without one-way branches of the pairs held; two trees of any capacities with the same contents have the same shape whatever their histories. Slots used and keys kept in inner nodes do depend on the history; so does the shape of RedBlackTree and AVLTree.", "quantifier": "every pair of histories of u128-keyed calls, every capacities, value type and profile", "why_tests_cant": "compares all pairs of histories with equal contents; a tree with a wrong prefix length or a misplaced branch can still answer all tested lookups", "anchors": ["src/critbit.rs:357-494"]}
{"id": "C61", "title": "Which slot holds what, and what is left in the slots not in use", "statement": "After any history of calls the slot of every key (value, for the deque) is the one a stack machine predicts from the sequence of contents alone: the slot of an entry that goes is pushed on a stack, an entry that comes gets the top of the stack or, if it is empty, the lowest slot never used. Slots given back are linked in stack order and still hold the pair they last held; the lowest slot never used is 1 + the most entries there have been at once, and from it on the array is as new left it. So RedBlackTree and AVLTree give the same address to every key after the same calls.", "quantifier": "every history of calls, every capacity, key order or hash function, value type and profile; RedBlackTree, AVLTree, HashTable, Deque, the value array of Critbit", "why_tests_cant": "the free list only shows in later addresses and in the raw bytes of the account; a test that reads back values sees none of it", "anchors": ["src/node_allocator.rs:265-301", "src/red_black_tree.rs:404-616", "src/avl_tree.rs:279-540", "src/hash_table.rs:242-310", "src/critbit.rs:357-494", "src/deque.rs:84-200"]}
{"id": "C62", "title": "Key types lawful only on part of their values (floats without NaN)", "statement": "If the comparison of keys (==, hash for HashTable) keeps its contract on some of the key type's values only, and the calls are given only such keys, then RedBlackTree, AVLTree and HashTable still are the map: the answers are those of a bounded finite map, and the pairs stored stand in key order. One call with a key outside is enough to break it.", "quantifier": "every key type, every set of its values on which the laws hold, every comparison and hash, every history of calls with keys in that set, every capacity and profile", "why_tests_cant": "the statement quantifies over all comparisons that misbehave somewhere; a test has one key type", "anchors": ["src/avl_tree.rs:560-640", "src/red_black_tree.rs:580-660", "src/hash_table.rs:160-260"]}
{"id": "C63", "title": "The randomised test of the repository, for every outcome of its random choices", "statement": "tests/test.rs `simulate`, run with any source of randomness whose keys are different, passes for HashTable, and for RedBlackTree, AVLTree and Critbit passes exactly when at least three entries are left after its hundred rounds (otherwise it panics choosing a breakpoint, though the map is right). If a key is repeated while the map is being filled, it panics for each of the four maps.", "quantifier": "every sequence of random keys, values, branch choices, numbers and shuffles, every capacity, key order, value type and profile", "why_tests_cant": "this is the test itself: one run samples one sequence of choices, and whether an unlucky sequence fails is not visible in the runs that pass", "anchors": ["tests/test.rs:40-308"]}
{"id": "C64", "title": "The unit tests inside src/, for all inputs", "statement": "`test_deque` (deque.rs) passes for every sequence of random values and breakpoints whenever the capacity is at least the number of elements it pushes, and panics otherwise. The deletion tests `test_delete_multiple_random_*` (red_black_tree.rs), with any list of keys in place of the hashes, pass exactly when no two keys are equal and all fit into the tree, leaving it empty; otherwise they panic and do nothing worse.", "quantifier": "every random generator, number of elements, capacity, key type and order, list of keys, profile", "why_tests_cant": "these are the tests themselves, run for one list of hashes and a few random sequences", "anchors": ["src/deque.rs:305-401", "src/red_black_tree.rs:1227-1366"]}
{"id": "C65", "title": "The collections look at their payloads only through comparison and hashing", "statement": "Two structures that run the same calls on different payloads - values related in any way, keys related in any way that comparison (equality and hash for HashTable) cannot tell apart - give related answers, fail in the same way, report the same addresses, and have the same indices, links, colours, heights and counters at every point. Hence for any lawful key order there is a replacement of the keys of a history by numbers under which the tree (table) of numbers behaves identically; and the structural unit tests of red_black_tree.rs (rotations and recolouring after an insertion, remove_root) pass for all keys in the relative order of the keys they use, with any values, in both profiles.", "quantifier": "every history, capacity, payload types, relation between payloads, key order, profile", "why_tests_cant": "it compares runs at all payload types; the structural tests fix one list of u64 keys each", "anchors": ["src/node_allocator.rs:117-340", "src/deque.rs:44-303", "src/hash_table.rs:86-520", "src/red_black_tree.rs:150-950", "src/avl_tree.rs:90-890", "src/critbit.rs:120-700", "src/red_black_tree.rs:972-1226", "src/red_black_tree.rs:1368-1385"]}
{"id": "C66", "title": "References yielded by iter_mut may be kept and used later", "statement": "A program may keep the references that iter_mut yields, ask the iterator further (at either end) in between, and read and write through the references later, in any order and any number of times. After any history, each reference behaves as a variable of its own: what is read through it is what iter would have yielded there, as changed through this reference only, and the key behind it never changes. The collection ends up exactly as if everything done to a reference had been done at the moment it was yielded, so a later iteration shows every write and nothing else. No step panics or touches memory outside the pool.", "quantifier": "every history, every program of asks and uses (any functions written, any order), capacity, payload types, key order, profile", "why_tests_cant": "the tests of the repository write through each reference at once or not at all; here all interleavings of asking, reading and writing are covered", "anchors": ["src/deque.rs:238-303", "src/hash_table.rs:440-505", "src/red_black_tree.rs:854-950", "src/avl_tree.rs:732-830", "src/critbit.rs:672-780", "src/node_allocator.rs:117-130"]}
{"id": "C67", "title": "A structure may be moved to a larger capacity", "statement": "Take any structure after any history and give it, behind its node array, further nodes whose registers are zero (their values may be anything), so that it is a structure of a type with a larger MAX_SIZE. Nothing that can be read of it changes except the capacity, and from then on every call answers as the specification says for the larger capacity; this may be repeated any number of times. Addresses of keys stay valid across it, trees stay balanced. In bytes: the buffer of the structure, made longer with zero bytes (as when an account is reallocated), is the buffer of the larger structure and may be loaded as it; for Critbit this holds for MAX_SIZE only.", "quantifier": "every program of calls and growings, every initial capacity and growth, payload types and layouts, lawful key orders and hashes, both profiles", "why_tests_cant": "MAX_SIZE is a constant of the type and no test of the repository moves a structure from one type to another; which states survive the move depends on the whole history (free list, bump index, links)", "anchors": ["src/node_allocator.rs:133-154", "src/node_allocator.rs:253-290", "src/node_allocator.rs:59-69", "src/deque.rs:11-18", "src/hash_table.rs:45-55", "src/red_black_tree.rs:66-76", "src/avl_tree.rs:64-73", "src/critbit.rs:30-46"]}
{"id": "C68", "title": "The byte format, field by field, and where each entry lies", "statement": "For type parameters that leave no gaps the bytes of every structure are exactly the concatenation of its fields in the order of the struct definitions (integers little-endian, digit i of base 256 in byte i; the padding words are zero; per node the registers, then the value; per pair the key, then the value). Hence, after any history, an entry of the map lies in the buffer at an offset computed from the slot that get_addr answers: header + (slot - 1) * (4 * registers + size of the pair) + 4 * registers, with the key first and the value behind it, each register and each bucket likewise; in Critbit the node of a key holds the key and the slot of its value, and the value lies there in the array of leaves; in the deque each value lies in its slot.", "quantifier": "all histories, all keys held, all slots and registers, all capacities and bucket counts, all payload types (with any encoding) that meet the layout conditions, both profiles", "why_tests_cant": "no test of the repository looks at a byte offset; programs in other languages that read accounts depend on them, and a change of field order or a wrong offset would pass every test that writes and reads through the crate", "anchors": ["src/node_allocator.rs:73-80", "src/node_allocator.rs:133-154", "src/deque.rs:11-18", "src/hash_table.rs:12-20", "src/hash_table.rs:45-55", "src/red_black_tree.rs:33-41", "src/red_black_tree.rs:66-76", "src/avl_tree.rs:31-39", "src/avl_tree.rs:64-73", "src/critbit.rs:9-15", "src/critbit.rs:30-46"]}
{"id": "C69", "title": "The benchmarks do what their names say — except the removal benchmark after its first pass", "statement": "For each of the four maps, any number n of keys within the capacity (for Critbit's repeated insertions: below it), any values drawn, any shuffle and any number of runs of the closure: the insertion benchmark never panics, every insertion of every pass answers an address, and at the end the map holds exactly the keys 0..n-1 with the values of the last pass; every look-up of the look-up benchmark answers the value inserted; in the removal benchmark the first pass removes every key and answers its value, and every later pass answers None for every key, i.e. runs on an empty map.", "quantifier": "all n up to the capacity, all capacities and bucket counts, all hash functions, all drawn values, all permutations, all numbers of iterations, both profiles", "why_tests_cant": "benchmarks throw every answer away: nothing checks that the timed calls do what is being measured, and the removal benchmark indeed times mostly removals from an empty map", "anchors": ["benches/bench.rs:16-34", "benches/bench.rs:54-221", "benches/bench.rs:250-315", "benches/bench.rs:347-404"]}
{"id": "C70", "title": "Overwriting a key through get_node_mut is safe while the new key takes the old one's place", "statement": "get_node_mut hands out a mutable reference to a node whose key field is public. For every sequence of calls and of assignments m.get_node_mut(m.get_addr(&k)).key = k' on stored keys k, from the new map: as long as k' stands to every other stored key as k does — trees: it compares with each of them the same way; HashTable: it hashes into the same bucket and equals none of them; Critbit: the highest bit at which it differs from each of them is the same — every call answers as a map in which the entry has the new key and its old value, and the assignment finds the stored pair. For other new keys this fails in every map: an entry that iteration yields is not found by get, and is_valid_red_black_tree still says true; in Critbit keeping the order is not enough.", "quantifier": "all sequences of calls and overwritings, all capacities and bucket counts, all key orders and hash functions obeying the laws, both profiles", "why_tests_cant": "no test assigns to a key; whether a later call goes wrong depends on all other keys stored and on the calls made afterwards", "anchors": ["src/red_black_tree.rs:329-331", "src/avl_tree.rs:259-261", "src/hash_table.rs:238-240", "src/critbit.rs:260-262"]}
{"id": "C71", "title": "Containers whose const parameters are 0", "statement": "RedBlackTree, AVLTree and Critbit with MAX_SIZE = 0: for every history of calls, insert panics (it does not answer None), Index panics, and every other call answers as an empty map; the trees never change. In Critbit each panicking insert has already taken a node from the node array, which is lost (refuted: a failed insertion leaves nothing behind); the root and the values stay as new made them. HashTable with NUM_BUCKETS = 0, which the even-number assertion accepts: every call with a key and every iteration panics, only len, is_empty and capacity answer, and nothing changes.", "quantifier": "all histories of calls, all key and value types, comparisons and hash functions, all NUM_NODES (Critbit) and MAX_SIZE (HashTable), both profiles", "why_tests_cant": "no test instantiates a container with parameter 0; the claim is about all histories", "anchors": ["src/red_black_tree.rs: _insert (474-481)", "src/avl_tree.rs: _insert (279-285)", "src/critbit.rs: _insert (407-412), add_leaf (270-277)", "src/hash_table.rs: get_addr (137), _insert (245), _remove (276), _iter (336-342)", "src/node_allocator.rs: add_node (265-280)"]}
{"id": "C72", "title": "The number of rotations of an operation", "statement": "RedBlackTree: an insertion calls _rotate_dir at most 2 times and a removal (remove, remove_root) at most 3 times, whatever the size of the tree. AVLTree: an insertion calls left_rotate and right_rotate at most 2 times together; a removal at most n times if (len + 1)^2 < 2^(n+1), that is, no more often than the tree may be high. The constants 2, 3 and 2 are attained.", "quantifier": "all histories of calls, all keys and values, all lawful orders, all MAX_SIZE with 0 < MAX_SIZE and MAX_SIZE + 1 < 2^32, both profiles", "why_tests_cant": "no test counts rotations, and a rebalancing that rotates too often can still leave a valid tree; the bound is over all trees", "anchors": ["src/red_black_tree.rs: _rotate_dir (445-472), _fix_insert (510-539), _fix_remove (635-672)", "src/avl_tree.rs: left_rotate, right_rotate (446-465), rebalance (497-539)"]}
{"id": "C73", "title": "The memory and the time of iterators", "statement": "Whatever the order of calls of next and next_back, before and after the end: an iterator (mutable or not) of a RedBlackTree or AVLTree with len entries, where (len + 1)^2 < 2^(n+1), never holds more than n indices on a stack, no call goes round its loop more than n + 1 times, and all calls of next together, as all calls of next_back, go round at most 2 len times. Of a Critbit: at most 129 entries on a stack, and at most len if len > 0, at most 2 len - 1 rounds. Of a HashTable, in any state: all calls of next together step over at most NUM_BUCKETS buckets. is_valid_red_black_tree needs n places on its stack and len rounds, pretty_print n + 1 places and 2 len + 1 rounds. The bounds 2 len, 2 len - 1, len and NUM_BUCKETS are attained.", "quantifier": "all histories of calls, all scripts of next and next_back, all keys and values, all lawful orders, 0 < MAX_SIZE, MAX_SIZE + 1 < 2^32 (Critbit: NUM_NODES + 1 < 2^32, all u128 keys), both profiles; for the HashTable any state", "why_tests_cant": "no test measures the stack of an iterator or counts rounds; an iterator that pushes a node twice or walks back to the root for each element can answer correctly", "anchors": ["src/red_black_tree.rs: pretty_print, is_valid_red_black_tree (229-314), iterators (724-945)", "src/avl_tree.rs: iterators (602-823)", "src/critbit.rs: iterators (512-773)", "src/hash_table.rs: iterators (336-496)"]}
{"id": "C74", "title": "How large MAX_SIZE may be", "statement": "For every MAX_SIZE a new NodeAllocator hands out exactly the indices 1, 2, ..., room(MAX_SIZE) when nodes are only added, and panics, unchanged, at the next add_node. room(MAX_SIZE) is ((MAX_SIZE + 1) mod 2^32) - 1, or if that remainder is 0, 2^32 - 2 with overflow checks and 2^32 - 1 without. It is never more than MAX_SIZE, and equal to MAX_SIZE exactly if MAX_SIZE + 1 < 2^32, or MAX_SIZE + 1 = 2^32 and overflow checks are off. With MAX_SIZE (Critbit: NUM_NODES) a positive multiple of 2^32 no container takes a first entry: push and insert panic.", "quantifier": "all MAX_SIZE, all numbers of registers > 0, all values, both profiles; for the containers all keys, values, comparisons and hash functions", "why_tests_cant": "an allocator of that size needs more than 32 GB; the conversion of MAX_SIZE + 1 to u32 is silent", "anchors": ["src/node_allocator.rs: add_node (265-280)", "src/deque.rs: push_back, push_front (93-115)", "src/hash_table.rs: _insert (242-271)", "src/red_black_tree.rs: _insert (474-508)", "src/avl_tree.rs: _insert (279-320)", "src/critbit.rs: _insert (407-443)"]}
{"id": "C75", "title": "How much of the memory an operation writes", "statement": "An operation leaves all but a few slots of the node array as they were, whatever the capacity and whether it returns or panics. Deque, any state: push_back writes at most the first free slot and the slot of the last element, push_front the first free slot and the slot of the first element, remove and the pops the slot removed and its two neighbours. HashTable, any state: insert at most 2 slots, remove 3, get_mut 4, and no bucket but the one of the key. Critbit, any state: insert at most 5 nodes, remove 6, get_mut none, and each at most one leaf. RedBlackTree with (len + 1)^2 < 2^n: insert at most 9n + 3 slots, remove and remove_root 15n + 8, get_mut one. AVLTree with (len + 1)^2 < 2^n: insert at most 5n + 2 slots, remove 5n + 4, get_mut one. In bytes of the buffer (keys and values without gaps): at most 32 bytes (AVLTree 24) and those slots of 16 + key + value bytes each.", "quantifier": "all reachable trees, all states of the other containers, all keys, values, comparisons, hash functions, capacities, both profiles", "why_tests_cant": "a test looks at what the calls return; a write to a slot that is not part of the structure, or a rewrite of all nodes, changes no answer, and the bound is about every size", "anchors": ["src/deque.rs: push_back, push_front, _remove (93-156)", "src/hash_table.rs: get_mut, _insert, _remove (134-300)", "src/critbit.rs: _insert, _remove, get_mut (129-500)", "src/red_black_tree.rs: _insert, _fix_insert, _remove, _remove_tree_node, _fix_remove (404-700)", "src/avl_tree.rs: _insert, _remove, rebalance (279-560)"]}
{"id": "C76", "title": "What the repository's fuzz targets and randomised test can detect", "statement": "Of any implementation of the map trait, right or wrong: an action of the fuzzing harness passes exactly if get confirms it (after Insert of an absent key that was accepted, after Upsert and Replace get answers the new value; Remove answers what get answered before; an iteration ends within capacity + 1 calls and get confirms each pair). A run passes exactly if every action does. But a map whose remove only reads, whose iterators are always empty and whose len is always 0 passes every run. The assertions of tests/test.rs for the ordered maps hold exactly if the iterators agree with the BTreeMap as far as they go, yield exactly len entries, and taken from both ends give all entries of the BTreeMap. get is never called there. For HashTable the test passes, for every outcome of its random choices, for a map that stores nothing but the number of its entries.", "quantifier": "all implementations of the map trait (any state type, any functions), all actions, random choices, key and value types", "why_tests_cant": "this is about what the tests themselves can see; running them against the right implementation says nothing about it", "anchors": ["fuzz/src/lib.rs: perform_action (19-76)", "fuzz/fuzz_targets/*.rs", "tests/test.rs: simulate (40-282)"]}
{"id": "C77", "title": "Keeping references of iter_mut under the aliasing rules of Rust (Stacked Borrows, Tree Borrows)", "statement": "The iterators of iter_mut make each item through self.….nodes.as_mut_ptr(), a new &mut to the whole node array, and their items carry the lifetime of the container, so the compiler lets a program keep earlier items. For every program that asks an iter_mut iterator from both ends, reads keys and reads and writes values behind the items: (1) recording the reborrows, reads and writes does not change its run. (2) Stacked Borrows: no undefined behaviour if it uses only the item of the latest call (a for loop; the keys of Critbit items and of course the values already copied may be kept); undefined behaviour whenever it uses the value (for HashTable and the two ordered trees also the key) of an item after a later call that yielded an item - so collecting iter_mut() into a Vec and then using it is undefined behaviour for all five containers. If all its questions are answered this is an equivalence. (3) Tree Borrows: on every reachable container no undefined behaviour unless some value is used, then the iterator asked, then the same value used again; in that case, if the call yielded an item, there is undefined behaviour. Again an equivalence if all questions are answered.", "quantifier": "all five containers; all programs (scripts) of any length; Stacked Borrows and the undefined-behaviour half of Tree Borrows: all container states; the well-behaved half of Tree Borrows: all reachable containers, all MAX_SIZE with MAX_SIZE + 1 < 2^32", "why_tests_cant": "ordinary tests cannot see undefined behaviour of this kind at all (the generated code happens to work); Miri checks single runs under one of the two rules", "anchors": ["src/deque.rs:251-310", "src/hash_table.rs:455-500", "src/red_black_tree.rs:880-965", "src/avl_tree.rs:758-845", "src/critbit.rs:690-780"]}
{"id": "C78", "title": "The machine arithmetic of the models is that of Rust", "statement": "The models compute with unbounded numbers through a few primitives; these behave as the Rust reference says. u32 and u64 addition and subtraction and i32 arithmetic give the exact result when it fits the type; otherwise they panic when overflow checks are on, and wrap to the representative modulo 2^bits when they are off. x as u32 keeps exactly the low 32 bits, x as i32 keeps the same 32 bits read as two's complement. u128::leading_zeros counts the zero bits from the top. (1u128 << 127) >> s has exactly the bit 127 - s for s < 128; for larger s it panics with overflow checks and takes s modulo 128 without. Padding to an alignment is the least multiple that is not smaller.", "quantifier": "all operands within their types; both overflow profiles; all shift amounts; all alignments > 0", "why_tests_cant": "the wrong cases (wrapping, large shifts, sign bit) are not reached by any test of the crate, and an error in such a primitive would silently weaken every other theorem", "anchors": ["src/node_allocator.rs:255-275", "src/avl_tree.rs:430-440", "src/critbit.rs:119", "src/critbit.rs:281", "src/critbit.rs:431"]}
{"id": "C79", "title": "What the unit tests inside src/ can detect", "statement": "Of any implementation of the methods they call, right or wrong: each of the five structural tests of red_black_tree.rs passes exactly if all insertions succeed and the parts of the tree listed in its theorem (edges seen from both ends, colours, leaves) are as listed; values and keys are never read, and after its last step test_insert_with_red_parent_and_uncle looks at colours only. A tree that stores one fixed value in place of all values and does nothing from the seventh insertion on passes all five, for all keys in the order of the test's keys. The deletion tests pass exactly if insert and remove always answer Some and the tree under test always calls itself valid (one of them: and get_addr answers what insert did; in another the first tree is not looked at). A tree whose insert and remove do nothing but answer passes all of them, for every list of keys. remove_root passes exactly if it first answers None and, after three insertions whose answers are ignored, the expected pair. For deque.rs: each assertion of test_deque holds exactly if the listed calls answer what the VecDeque holds, for any contents of the deque's memory.", "quantifier": "all implementations (any state type, any functions), all keys and values, all capacities of the idle tree with 0 < MAX_SIZE and MAX_SIZE + 1 < 2^32; deque: all memory contents, all draws", "why_tests_cant": "a test cannot say which wrong programs it accepts", "anchors": ["src/red_black_tree.rs:972-1385", "src/deque.rs:305-401"]}
{"id": "C80", "title": "One structure used by several programs with different ==, Hash or Ord", "statement": "When every call on a structure comes with the ==, hash function or comparison of the program that makes it (none of them lawful, no two agreeing), the hash table still answers as the table of chains does when each call uses its own functions, iteration shows the chains; the trees still answer as search trees do, keep the shape of a red-black and an AVL tree (hence logarithmic depth), and nothing but the indexing operators panics. A table filled with a lawful hash function and read with another finds exactly the keys whose bucket is the same under both; insert of any other key adds a second pair beside the first, remove of it does nothing. A tree filled under a total order and read under its reverse finds exactly the key at its root. That a table filled by one lawful program holds each key once after another lawful program with the same == inserted into it is refuted.", "quantifier": "all histories of calls, all functions with every call, all key and value types, MAX_SIZE with MAX_SIZE + 1 < 2^32 (0 < MAX_SIZE for the trees), 0 < NUM_BUCKETS", "why_tests_cant": "a test is one program with one ==, Hash and Ord; the buffers outlive programs, and the algorithm of DefaultHasher is left open between releases of the standard library", "anchors": ["src/hash_table.rs:106-345", "src/red_black_tree.rs:137-200", "src/red_black_tree.rs:404-730", "src/avl_tree.rs:117-200", "src/avl_tree.rs:279-585"]}
{"id": "C81", "title": "The NodeAllocator outside its contract: double frees, stray frees, writes to freed slots", "statement": "remove_node checks nothing but SENTINEL. Freeing a slot that is already free answers Some(value) like a proper call; that slot is then handed out twice, with the slots that preceded it on the free list in between, and after that every add_node panics: the other free slots are lost. Freeing the first never-used slot loses all recycled slots, and the slot comes with register 0 naming a free slot instead of SENTINEL; freeing a later never-used slot hands it out twice. On a pool without allocated slots remove_node panics with overflow checks, after having changed the free list, and makes size u64::MAX without them. Writing register 0 of a freed slot makes the allocator hand out the value written; writing any other register, register 0 of any other slot, any value, or the public field size has no effect on what is handed out. A recycled slot is handed out with registers 1.. as they were left, a never-used one with all registers SENTINEL. After any calls with any arguments at all, failures are panics, what is handed out lies in 1..MAX_SIZE, and after at most 2*MAX_SIZE further allocations every add_node panics.", "quantifier": "all pools reached within the contract (for the last sentence: all histories of calls with all arguments), all node types, all MAX_SIZE with MAX_SIZE + 1 < 2^32, both overflow settings", "why_tests_cant": "no test calls the allocator directly with an index that is not allocated; what is handed out afterwards depends on the whole free list, and the bound on corrupted free lists is about every possible corruption", "anchors": ["src/node_allocator.rs:262-339"]}
{"id": "C82", "title": "Structures in a zeroed buffer used without, or before, initialize", "statement": "In a zeroed buffer on which initialize was not called, every call that does not insert (lookups, removals, pops, len, iteration, in any order) answers exactly as on the structure of new() and changes nothing. The first insertion panics, with and without overflow checks: add_node moves bump_index from 0 to 1 and then writes slot number 0, out of bounds. For Deque, HashTable, RedBlackTree and AVLTree what the panic leaves is exactly the structure of new(): if the panic is caught, or the buffer is persisted, all later calls behave as on an initialized structure, and a late initialize panics. Critbit has two allocators: the first insertion panics having set up the nodes but not the leaves, the second panics having set up the leaves and taken a node slot that no leaf refers to, the third is stored, at address 2; initialize panics after the first.", "quantifier": "all element types, all MAX_SIZE (and NUM_NODES) with MAX_SIZE + 1 < 2^32, all hash functions and comparisons, all sequences of calls before and after the first insertion, both overflow settings", "why_tests_cant": "no test uses a zeroed buffer without initialize; the panic hides what was written before it, and the claim is about every sequence of calls before and after it", "anchors": ["src/node_allocator.rs:242-280", "src/deque.rs", "src/hash_table.rs", "src/red_black_tree.rs", "src/avl_tree.rs", "src/critbit.rs:216-219", "src/critbit.rs:270-277", "src/critbit.rs:407-443"]}
{"id": "C83", "title": "On memory with any contents, a loop not over after MAX_SIZE + 1 rounds is never over", "statement": "For every state of the node array and registers, also one that no program of the library could have written, the loops that walk through nodes (lookups, insertions, removals, leftmost/rightmost, iterators of both trees, of the hash table and of the Critbit) either end within MAX_SIZE + 1 rounds or never end: no memory makes them end later. The scan over the buckets always ends. This is false of is_valid_red_black_tree, which on a memory of n nodes may take exactly 2^n rounds, and of the two loops that restore the red-black invariants.", "quantifier": "all states (any registers, any root, any start of the walk), all keys and comparison functions, all numbers of rounds; all n for the exponential case", "why_tests_cant": "A loop that does not end cannot be told from one that ends late by running it, and the memories are too many to enumerate.", "anchors": ["src/red_black_tree.rs:474-508", "src/red_black_tree.rs:286-307", "src/red_black_tree.rs:510-539", "src/red_black_tree.rs:641-672", "src/avl_tree.rs", "src/hash_table.rs", "src/critbit.rs:418-442", "src/critbit.rs:612-634"]}
{"id": "C84", "title": "RedBlackTree: the repair loops go round four times per insertion or removal at most, taken over a whole history", "statement": "In every history of calls on a new RedBlackTree, the while loop of _fix_insert and the loop of _fix_remove together make at most 4 rounds for each insertion, remove and remove_root of the history, counting every look at the loop condition, although a single call may make as many rounds as the tree is high. Started from a tree that holds len entries, len rounds more are enough.", "quantifier": "all histories of trait calls and remove_root, all key and value types, all total orders, all MAX_SIZE within u32, all starting trees that a history leads to", "why_tests_cant": "The bound is about sums over histories of any length; a test sees the cost of the histories it runs, and the dear calls are rare.", "anchors": ["src/red_black_tree.rs:510-539", "src/red_black_tree.rs:641-672", "src/red_black_tree.rs:474-508", "src/red_black_tree.rs:541-633", "src/red_black_tree.rs:404-414"]}
{"id": "C85", "title": "HashTable: lookups take exactly as many rounds as the key is deep in its chain, and get_mut's move to the front costs at most twice the best fixed order", "statement": "On every table reached by a history, get, contains, get_addr, get_mut, insert and remove make exactly as many rounds of their while loop as there are pairs in the chain up to the first equal key, or one more than the chain is long if there is none. For every sequence of get_mut calls on such a table the rounds of all calls together are at most twice those the same calls would make in chains of any other, never changing order, plus one for each pair of entries that share a chain. No factor below two has this property, and for get, which moves nothing, no factor has it at all.", "quantifier": "all histories, all sequences of get_mut calls, all orders of the chains, all key and value types, all == and hash functions (the bound: those that keep the contracts of Eq and Hash), all even NUM_BUCKETS > 0 and MAX_SIZE within u32", "why_tests_cant": "The bound compares the sum over a sequence of any length with the best of all orders of the chains, which depends on the whole sequence; that two is the least factor is about families of tables of every size.", "anchors": ["src/hash_table.rs:134-169", "src/hash_table.rs:118-132", "src/hash_table.rs:242-271", "src/hash_table.rs:273-302", "src/hash_table.rs:304-334"]}
{"id": "C86", "title": "A detour leaves no trace: inserting and removing again (or removing and putting back) changes no later answer and no later slot", "statement": "Take any history of a container and put in, at any place, the insertion of a key that is not there followed by its removal (for the ordered maps also the removal of a pair that is there followed by its insertion; for the deque a push followed by a pop at the same end, or the reverse). Then every other answer of the history is what it was, every key has the slot it had (for Critbit the slot of the value), the next new entry will get the slot it would have got, the hash table iterates in the same order and the deque gives the same slots and values in the same order. If a map is full the insertion is refused and the removal finds nothing. What does change: the shape of the trees, hence what remove_root takes, the node addresses of Critbit, the sequence number of the deque; and a pair removed from the hash table and put back moves to the front of its chain.", "quantifier": "all histories before and after the detour, all keys and values, all key orders (or == and hash functions) that keep their contracts, all capacities within u32 (for the deque: fewer than 2^64 calls if overflow checks are on)", "why_tests_cant": "It compares two runs for every pair of histories of unbounded length; the free list, the balance of the tree and the chains differ in between, and a difference could show only many calls later.", "anchors": ["src/node_allocator.rs:265-294", "src/red_black_tree.rs:137-143", "src/avl_tree.rs:117-123", "src/critbit.rs:92-98", "src/hash_table.rs:106-112", "src/deque.rs:93-160"]}
{"id": "C87", "title": "The contents are the whole state: containers that read the same cannot be told apart by any further calls", "statement": "Take two containers of one kind made by any two histories of calls (for red-black trees also with remove_root), or a red-black tree and an AVL tree. No sequence of further calls of the trait gets different answers from the two (addresses left aside: of what insert returns, only whether it is Some) if and only if their capacities are equal and reading them with next from front to back gives the same. For hash tables this holds for the same number of buckets, with every == and hash function; with different numbers of buckets or different lawful hash functions, the calls other than iteration cannot tell two tables apart if and only if get answers the same for every key and the capacities are equal. What is not determined by the contents: which pair remove_root takes, the slots, and (for different numbers of buckets) the order of later iterations.", "quantifier": "all pairs of histories, all sequences of further calls, all key orders (or == and hash functions) that keep their contracts, all capacities within u32, all fills of unused slots (for the deque: fewer than 2^64 calls if overflow checks are on)", "why_tests_cant": "It quantifies over pairs of histories and all continuations; the two containers differ in tree shape, colours, balance factors, free lists and slots, any of which could leak into an answer after arbitrarily many calls.", "anchors": ["src/node_allocator.rs:34-58", "src/red_black_tree.rs:131-210", "src/avl_tree.rs:111-225", "src/critbit.rs:89-207", "src/hash_table.rs:99-205", "src/deque.rs:93-160"]}
{"id": "C88", "title": "Calculating with calls: which sequences of calls may stand for each other", "statement": "After any history, calls about different keys do not disturb each other: as long as there is room for the insertions among them, each gets the answer it would get alone, and they may be made in any order without any later call noticing. Two calls about one key may be replaced by one, as expected (insert then insert is the second insert, insert then remove is remove, remove then remove is remove, get_mut then get_mut is one get_mut with the composed function, …), and calls that only read may be left out. On the deque a call at the front and a call at the back change places if there is room and there are values enough for both. Limits: on a full map the calls do not change places; Critbit with one place left keeps the FIRST of two values inserted for a new key; an ordered map does not take 'remove, insert' for 'insert' when equal keys differ; iteration over a hash table shows the order of insertions.", "quantifier": "all histories before, all sequences of calls after, all keys, values, orders, hash functions, capacities", "why_tests_cant": "The claim compares all continuations of two different programs from every reachable state; a test can compare a few continuations from a few states.", "anchors": ["src/red_black_tree.rs", "src/avl_tree.rs", "src/critbit.rs", "src/hash_table.rs", "src/deque.rs", "src/node_allocator.rs"]}
{"id": "C89", "title": "Which trees an AVLTree can be: exactly the balanced search trees", "statement": "The trees that histories of calls on an AVLTree produce, drawn by following the left and right registers from the root, are exactly the balanced search trees of at most MAX_SIZE pairs: every reachable tree is one (one drawing only, in order its contents), and every one is reachable - from the empty tree by inserting its own pairs once each in a suitable order, and from any other tree by some calls. Insertion moves nothing it need not: if hanging up the new leaf leaves the tree balanced, that is all that happens. Given pairs can stand at all heights h with fib (h + 2) <= n + 1 <= 2^h and at no other, so the height bound of C30 is attained for every height.", "quantifier": "all histories, all drawings (finite binary trees of pairs), all key types with a total order, all capacities up to 2^32 - 2, both overflow profiles", "why_tests_cant": "The number of balanced trees grows faster than exponentially with the capacity; a test can neither enumerate them nor search for a history that makes a given one.", "anchors": ["src/avl_tree.rs:insert", "src/avl_tree.rs:rebalance", "src/avl_tree.rs:update_height", "src/avl_tree.rs:balance_factor"]}
{"id": "C90", "title": "AVLTree is the AVL tree of the textbooks, node for node", "statement": "After every history of calls the tree of an AVLTree, drawn by following the left and right registers from the root, is the very tree that Adelson-Velsky and Landis' recursive insertion and deletion (a dozen lines on binary trees, without addresses, height registers or explicit path) make of the same calls: every pair is at its place. The same for each single insert and remove from any reachable tree. Hence the shape depends on the sequence of calls only, not on capacity (while there is room), build profile, default value or slots; and pairs inserted in ascending or in descending order make a tree as low as any tree of as many pairs can be.", "quantifier": "all histories, all key types with a total order, all capacities up to 2^32 - 2, both overflow profiles", "why_tests_cant": "A wrong choice between single and double rotation, or a height register not updated far enough up, can leave a balanced-looking map with correct contents; only comparing the shape after every history with an independent definition rules it out.", "anchors": ["src/avl_tree.rs:insert", "src/avl_tree.rs:remove", "src/avl_tree.rs:rebalance", "src/avl_tree.rs:left_rotate", "src/avl_tree.rs:right_rotate", "src/avl_tree.rs:update_height", "src/avl_tree.rs:balance_factor"]}
{"id": "C91", "title": "RedBlackTree is a recursive red-black tree on paper, node for node and colour for colour", "statement": "After every history of calls (with remove_root) the tree of a RedBlackTree, drawn with its colours by following the left and right registers from the root, is the very tree that a short recursive definition of red-black insertion and deletion (on trees, without addresses, parent registers or walk back up) makes of the same calls. The same for each single insert, remove and remove_root from any reachable tree. Hence shape and colours depend on the sequence of calls only, not on capacity (while there is room), build profile, default value or slots. The definition differs from the textbooks in one place, and so does the code: when a removed black node has a red child the repair for a missing black node is run, instead of painting the child black.", "quantifier": "all histories, all key types with a total order, all capacities up to 2^32 - 2, both overflow profiles", "why_tests_cant": "A wrong rotation or colour in one of the many mirrored cases of _fix_insert and _fix_remove can leave a valid red-black tree with correct contents; only comparing shape and colours after every history with an independent definition rules it out.", "anchors": ["src/red_black_tree.rs:_insert", "src/red_black_tree.rs:_fix_insert", "src/red_black_tree.rs:_remove_tree_node", "src/red_black_tree.rs:_fix_remove", "src/red_black_tree.rs:_rotate_dir", "src/red_black_tree.rs:remove_root", "src/red_black_tree.rs:_transplant"]}
{"id": "C92", "title": "How high a RedBlackTree can get, exactly; keys inserted in order make the highest tree of all", "statement": "After every history of calls a RedBlackTree of 2k levels holds at least 2^(k+1) - 2 pairs, one of 2k + 1 levels at least 3*2^k - 2. These numbers are exact: when n pairs are inserted in ascending or in descending order of their keys the tree has 2k levels as soon as n reaches 2^(k+1) - 2 and 2k + 1 levels as soon as n reaches 3*2^k - 2, and no red-black tree of n pairs is higher. (For AVLTree the same insertions make the lowest tree possible, C90.)", "quantifier": "all histories, all sorted sequences of any length that fits, all key types with a total order, all capacities up to 2^32 - 2, both overflow profiles", "why_tests_cant": "Exact bounds speak about all trees of all sizes, and about all red-black trees at once for the comparison.", "anchors": ["src/red_black_tree.rs:_insert", "src/red_black_tree.rs:_fix_insert", "src/red_black_tree.rs:_rotate_dir"]}
{"id": "C93", "title": "The methods Rust provides for iterators (nth, count, last, find, position, any, all, collect, fold, rev, eq, …) give the right answers on the iterators of the crate", "statement": "The iterators of the crate define next and next_back only; the other methods of Iterator and DoubleEndedIterator are the provided ones, loops over these two. For every reachable Deque, RedBlackTree, AVLTree and Critbit, any sequence of these methods on one iterator, each taken from the front or from the back (rev(), nth_back, rfind, rfold, …), answers as the sequence of the contents does and leaves what it should; every loop ends after at most one call more than there are items. On a HashTable this is so from the front (chains in bucket order, whatever == and the hash do), while from the back every method sees an empty sequence. a.iter().eq(b.iter()) compares the contents, also of containers of different kinds.", "quantifier": "all histories, all sequences of methods, all predicates and functions without effects, all key types with a total order (HashTable: all == and hash functions), all capacities up to 2^32 - 2, both overflow profiles", "why_tests_cant": "Mixed use of both ends through methods that stop early (find, position, nth) leaves the two stacks of the iterator in states that depend on contents and predicate; the theorem covers all of them.", "anchors": ["src/red_black_tree.rs:RedBlackTreeIterator", "src/avl_tree.rs:AVLTreeIterator", "src/critbit.rs:CritbitIterator", "src/hash_table.rs:HashTableIterator", "src/deque.rs:DequeIterator"]}
{"id": "C94", "title": "What lookups in the HashTable cost is the number of keys that share buckets; on the average over a universal family of hash functions it is 1 + (n-1)/(2 NUM_BUCKETS) rounds", "statement": "After any history, looking up all n keys a HashTable holds takes exactly n rounds of the loop that follows a chain plus one for each pair of keys with the same bucket, in whatever order the calls have left the chains; a key not held takes one round plus one for each key in its bucket. Hence, if the hash function is one of a universal family (two different keys share a bucket under at most one in NUM_BUCKETS of the functions), a lookup takes on the average at most 1 + (n-1)/(2 NUM_BUCKETS) rounds for the keys held and at most 1 + n/NUM_BUCKETS for a key not held, whatever the calls were. No hash function gets below (n/NUM_BUCKETS + 1)/2 on the average over the keys held. Of any NUM_BUCKETS*(n-1)+1 different keys there are n that need together n(n+1)/2 rounds when inserted. Universal families exist for every number of buckets and all integer keys.", "quantifier": "all histories, all hash functions and == with the laws of Hash and Eq, all universal families, all even NUM_BUCKETS > 0, all MAX_SIZE up to 2^32 - 2, both overflow profiles", "why_tests_cant": "An average over all functions of a family, for every history and every set of keys; a benchmark sees one hash function and one set of keys.", "anchors": ["src/hash_table.rs:HashTable::get", "src/hash_table.rs:HashTable::get_addr", "src/hash_table.rs:HashTable::_insert", "src/hash_table.rs:HashTable::get_mut"]}
{"id": "C95", "title": "The contents and iteration orders a HashTable can have are exactly those arranged by buckets; get_mut alone gets from any of them to any other with the same pairs", "statement": "A list of pairs is what some reachable HashTable gives when iterated if and only if it has at most MAX_SIZE pairs, no two equal keys, and the buckets of the keys (hash modulo NUM_BUCKETS) ascend along the list: nothing else can be said of a reachable table that its users can see. From any reachable table, calls of get_mut that do not change a value can bring the pairs into any other order in which the buckets ascend.", "quantifier": "all lists of pairs, all histories, all hash functions and == with the laws of Hash and Eq, all even NUM_BUCKETS > 0, all MAX_SIZE up to 2^32 - 2, both overflow profiles", "why_tests_cant": "The direction from right to left asserts a history for every arranged list, the other direction that no history whatever gives another list.", "anchors": ["src/hash_table.rs:HashTable::_insert", "src/hash_table.rs:HashTable::_remove", "src/hash_table.rs:HashTable::get_mut", "src/hash_table.rs:HashTableIterator"]}
{"id": "C96", "title": "In which slots the values of a Deque can lie: every assignment of slots and every order of the free list is reached, within 8 MAX_SIZE^2 + 2 MAX_SIZE calls", "statement": "The slots 1, …, n of a Deque that have been used (n at most MAX_SIZE) are, after any history, each either in the sequence or in the free list; conversely for every way to deal them out to the two, in any order and with any values (also in the slots given back), there are calls, at most 8 MAX_SIZE^2 + 2 MAX_SIZE, that leave a new Deque in exactly this memory: head, tail, links, values, free list and the slots never used. So nothing more can be concluded from the contents of a Deque about its memory.", "quantifier": "all element types, all assignments of slots, all capacities up to 2^32 - 2 (with overflow checks: capacities for which the calls are fewer than 2^64), both overflow profiles", "why_tests_cant": "The converse asserts calls for each of the more than n! assignments of slots, for every n.", "anchors": ["src/deque.rs:Deque", "src/deque.rs:Deque::push_front", "src/deque.rs:Deque::push_back", "src/deque.rs:Deque::pop_front", "src/deque.rs:Deque::pop_back", "src/node_allocator.rs:NodeAllocator::add_node", "src/node_allocator.rs:NodeAllocator::remove_node"]}
{"id": "C97", "title": "Which contents and sequence numbers a Deque can have, exactly", "statement": "After some calls on a new Deque the iterators show the values l and sequence_number is s exactly if l has at most MAX_SIZE values, s is below 2^64 and has the parity of the length of l, is not below that length when overflow checks are on, and is 0 if MAX_SIZE is 0. In particular the parity of the sequence number always tells the parity of the number of values, also after it has wrapped around.", "quantifier": "all element types, all capacities up to 2^32 - 2, all contents and sequence numbers, all histories (with overflow checks: fewer than 2^64 calls), both overflow profiles", "why_tests_cant": "Both directions quantify over all histories; the sequence numbers that wrap around need 2^64 calls.", "anchors": ["src/deque.rs:Deque", "src/deque.rs:Deque::push_front", "src/deque.rs:Deque::push_back", "src/deque.rs:Deque::pop_front", "src/deque.rs:Deque::pop_back", "src/deque.rs:Deque::iter"]}

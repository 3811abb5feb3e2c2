{"id": "C01", "title": "get returns the history value", "statement": "For every sequence of committed value sets (versions 0,1,2,...), `get(key, v)` returns exactly the value of the last write to `key` in the value sets of versions 0..v (None if never written or last write was a deletion), including several writes to one key inside one value set.", "quantifier": "all histories of value sets (any length, inserts and deletes, duplicate keys inside a set), all keys, all committed versions", "why_tests_cant": "the number of histories is infinite; version lookup is a search in a per-key history", "anchors": ["src/tree.rs::get", "src/tree.rs::put_value_sets", "src/tree_cache.rs::put_value", "src/mock.rs::get_value_option", "src/mock.rs::put_value"]}
{"id": "C02", "title": "get_with_proof returns the history value", "statement": "`get_with_proof(key, v)` succeeds for every committed readable version and its value component equals the history value (the same answer as `get`).", "quantifier": "all histories, keys and committed versions that have not been purged", "why_tests_cant": "depends on the shape of the tree produced by every possible history", "anchors": ["src/tree.rs::get_with_proof", "src/tree.rs::get"]}
{"id": "C03", "title": "root hash is the sparse-Merkle root of the contents", "statement": "The root hash returned for version v is the root of the 256-bit sparse Merkle tree (empty subtree = placeholder, one-key subtree = leaf hash, otherwise internal hash of the two halves) over exactly the key/value-hash pairs present after versions 0..v.", "quantifier": "all histories of value sets", "why_tests_cant": "the 16-ary, path-compressed, bitmap-driven implementation must agree with the binary specification on every key set", "anchors": ["src/tree.rs::put_value_sets", "src/node_type.rs::InternalNode::hash", "src/node_type.rs::merkle_hash"]}
{"id": "C04", "title": "history independence of the root", "statement": "Two histories that lead to the same key/value map yield the same root hash, whatever the order, grouping, overwrites and deletions that led there; in particular inserting and then deleting a key restores the root.", "quantifier": "all pairs of histories with equal final contents", "why_tests_cant": "quantifies over pairs of arbitrary histories", "anchors": ["src/tree.rs::put_value_sets", "src/tree.rs::insert_at_internal_node"]}
{"id": "C05", "title": "the returned root is the stored root", "statement": "The i-th root hash returned by `put_value_sets(sets, v)` equals `get_root_hash(v+i)` (and `get_root_hash_option`) after the batch is written, and stays so after any later commits.", "quantifier": "all histories, all value set lists", "why_tests_cant": "requires knowing what every later commit leaves untouched", "anchors": ["src/tree.rs::get_root_hash", "src/tree.rs::get_root_hash_option", "src/tree_cache.rs::freeze"]}
{"id": "C06", "title": "existence proofs verify (completeness)", "statement": "If key has value x at version v then the proof returned by `get_with_proof(key, v)` passes `verify_existence(root(v), key, x)`.", "quantifier": "all histories, keys present, readable versions", "why_tests_cant": "every tree shape and depth matters (path compression, sibling counts not multiples of 4)", "anchors": ["src/tree.rs::get_with_proof", "src/types/proof/definition.rs::verify_existence", "src/node_type.rs::get_only_child_with_siblings"]}
{"id": "C07", "title": "non-existence proofs verify (completeness)", "statement": "If key is absent at version v then the proof returned by `get_with_proof(key, v)` passes `verify_nonexistence(root(v), key)`.", "quantifier": "all histories, keys absent, readable versions", "why_tests_cant": "same as above; absent keys may end at a leaf, an empty slot or an empty tree", "anchors": ["src/tree.rs::get_with_proof", "src/types/proof/definition.rs::verify_nonexistence"]}
{"id": "C08", "title": "existence soundness", "statement": "If any proof whatsoever passes `verify_existence(root(m), key, x)` then m maps key to x, or else the finite set of hash inputs occurring in m's tree and in that proof contains an explicit hash collision (or a preimage of the placeholder).", "quantifier": "all maps m, all byte-level proofs (adversarial), keys, values, hash functions", "why_tests_cant": "adversarial proofs are unbounded; no test enumerates them", "anchors": ["src/types/proof/definition.rs::verify"]}
{"id": "C09", "title": "non-existence soundness", "statement": "If any proof passes `verify_nonexistence(root(m), key)` then key is not in m, or an explicit hash collision / placeholder preimage exists among the inputs of m's tree and the proof.", "quantifier": "all maps, adversarial proofs, keys, hash functions", "why_tests_cant": "adversarial proofs are unbounded", "anchors": ["src/types/proof/definition.rs::verify"]}
{"id": "C10", "title": "root binding", "statement": "Two different key/value maps have different root hashes, or an explicit hash collision / placeholder preimage exists among the hash inputs of the two trees and the values.", "quantifier": "all pairs of maps, all hash functions", "why_tests_cant": "quantifies over all pairs of maps", "anchors": ["src/node_type.rs::merkle_hash", "src/types/proof.rs::SparseMerkleLeafNode::hash", "src/types/proof.rs::SparseMerkleInternalNode::hash"]}
{"id": "C11", "title": "committed versions are immutable", "statement": "Committing further versions changes neither the root hash, nor any value, nor any proof returned for an already committed version.", "quantifier": "all histories and all extensions of them", "why_tests_cant": "quantifies over all future operations", "anchors": ["src/tree_cache.rs::put_node", "src/tree_cache.rs::freeze", "src/mock.rs::write_node_batch"]}
{"id": "C12", "title": "multi-version batches equal one-by-one commits", "statement": "Writing the batch of `put_value_sets([s0..sn], v)` leaves the store with the same nodes, values and root hashes as committing s0..sn one at a time.", "quantifier": "all reachable stores, all lists of value sets", "why_tests_cant": "the in-memory cache layering must be transparent for every list of sets", "anchors": ["src/tree.rs::put_value_sets", "src/tree_cache.rs::freeze"]}
{"id": "C13", "title": "put with proof has the same effect as put", "statement": "`put_value_sets_with_proof` returns the same root hashes and the same update batch as `put_value_sets`, and fails exactly when it does.", "quantifier": "all reachable stores and value set lists", "why_tests_cant": "the proof-producing path duplicates control flow at every level", "anchors": ["src/tree.rs::put_value_sets_with_proof", "src/tree.rs::put"]}
{"id": "C14", "title": "update proofs verify (completeness)", "statement": "For every commit, the `UpdateMerkleProof` returned by `put_value_set_with_proof(set, v)` passes `verify_update(root(v-1), root(v), set)` (the old root being the empty root for the first version), without panicking.", "quantifier": "all histories, all value sets with inserts, updates, deletes, no-op deletes, duplicates", "why_tests_cant": "the split and coalesce reconstructions must be right at every depth and bit alignment", "anchors": ["src/types/proof/definition.rs::verify_update", "src/types/proof/definition.rs::compute_new_merkle_path_on_split", "src/tree.rs::put_value_set_with_proof"]}
{"id": "C15", "title": "update proofs are sound for effective updates", "statement": "If one update proof is accepted from root(m) for setting key to x, or with a leaf for deleting key, then the resulting root is root(m[key:=x]) resp. root(m minus key), or an explicit hash collision exists; with overflow checks on.", "quantifier": "all maps, adversarial proofs, keys, values, hash functions", "why_tests_cant": "adversarial proofs are unbounded", "anchors": ["src/types/proof/definition.rs::check_compute_new_root", "src/types/proof/definition.rs::verify_update"]}
{"id": "C16", "title": "verify_update soundness for deletions (refuted)", "statement": "`verify_update` accepting a deletion of key from root(m) to root r implies r = root(m minus key). FALSE of the code: a proof without a leaf makes the deletion a no-op, so the deletion of a present key is accepted with an unchanged root.", "quantifier": "all maps, proofs and keys", "why_tests_cant": "adversarial proof", "anchors": ["src/types/proof/definition.rs::check_compute_new_root"]}
{"id": "C17", "title": "proof verification never panics", "statement": "`verify`, `verify_existence` and `verify_nonexistence` return Ok or Err and never panic on any (deserialised) proof, key, value and root.", "quantifier": "all proofs with any number of siblings, all keys, values and roots", "why_tests_cant": "adversarial inputs", "anchors": ["src/types/proof/definition.rs::verify"]}
{"id": "C18", "title": "verify_update robustness (refuted)", "statement": "`verify_update` never panics, and with overflow checks off never accepts a wrong insertion. FALSE of the code: the split case never checks that the leaf shares enough prefix with the new key, so an adversarial proof underflows: a panic with overflow checks, and without them acceptance of a new root that erases an existing key.", "quantifier": "all proofs", "why_tests_cant": "adversarial inputs; depends on arithmetic mode", "anchors": ["src/types/proof/definition.rs::compute_new_merkle_path_on_split", "src/types/proof/definition.rs::root_hash"]}
{"id": "C19", "title": "batch_put_value_sets equals put_value_sets", "statement": "On a reachable non-empty-history store (or version 0), `batch_put_value_sets` with non-empty sets of insertions returns the same root hashes and writes the same nodes and values as `put_value_sets` with the same sets.", "quantifier": "all reachable stores, all lists of non-empty insertion sets, with duplicates", "why_tests_cant": "two independent algorithms must agree on every input", "anchors": ["src/tree.rs::batch_put_value_sets", "src/tree.rs::batch_insert_at", "src/types/nibble.rs::NibbleRangeIterator"]}
{"id": "C20", "title": "commits only add fresh nodes", "statement": "A commit never rewrites an existing node key: all node keys in the batch are new to the store, so writing it to a store that forbids overwriting succeeds.", "quantifier": "all reachable stores and value set lists", "why_tests_cant": "node keys could clash only in rare shapes (splits, coalescing, no-op versions)", "anchors": ["src/tree_cache.rs::put_node", "src/tree_cache.rs::freeze", "src/mock.rs::write_node_batch"]}
{"id": "C21", "title": "stale indices refer to existing nodes, once", "statement": "Every stale-node index emitted by a commit refers to a node that exists in the store (or in an earlier version of the same batch), is emitted at most once over the whole history and is not part of any version from `stale_since_version` on.", "quantifier": "all histories", "why_tests_cant": "quantifies over all histories", "anchors": ["src/tree_cache.rs::delete_node", "src/tree_cache.rs::freeze", "src/mock.rs::put_stale_node_index"]}
{"id": "C22", "title": "purging is safe", "statement": "`purge_stale_nodes(l)` succeeds and afterwards, for every committed version w >= l (and for the latest version), root hash, values and proofs are unchanged, and later commits behave as if no purge had happened.", "quantifier": "all histories interleaving commits and purges", "why_tests_cant": "interleavings of purge and commit are unbounded", "anchors": ["src/mock.rs::purge_stale_nodes", "src/tree_cache.rs::freeze"]}
{"id": "C23", "title": "purging is complete (refuted)", "statement": "After purging at the latest version the store holds only nodes reachable from it. FALSE of the code: the root node of a no-op version and empty-root nodes are never marked stale and leak.", "quantifier": "all histories", "why_tests_cant": "rare shapes", "anchors": ["src/tree_cache.rs::freeze", "src/tree.rs::insert_at"]}
{"id": "C24", "title": "node statistics are accurate", "statement": "The `NodeStats` of each version in a batch give exactly the number of nodes and of leaf nodes that version adds, and the number of nodes and of leaves it marks stale.", "quantifier": "all reachable stores and value set lists", "why_tests_cant": "counters are maintained incrementally along every code path", "anchors": ["src/tree_cache.rs::put_node", "src/tree_cache.rs::delete_node", "src/writer.rs::NodeStats"]}
{"id": "C25", "title": "leaf count is the number of keys", "statement": "`get_leaf_count(v)` equals the number of keys present at version v.", "quantifier": "all histories and readable versions", "why_tests_cant": "counts are stored in nodes and maintained incrementally", "anchors": ["src/tree.rs::get_leaf_count", "src/node_type.rs::sum_leaf_count"]}
{"id": "C26", "title": "iteration from a key", "statement": "`JellyfishMerkleIterator::new(store, v, k)` yields exactly the key/value pairs present at version v with key >= k, each once, in increasing key order, then None, without errors.", "quantifier": "all histories, readable versions and start keys (present or absent)", "why_tests_cant": "all tree shapes and start positions", "anchors": ["src/iterator.rs::JellyfishMerkleIterator::new", "src/iterator.rs::next"]}
{"id": "C27", "title": "iteration by index", "statement": "`JellyfishMerkleIterator::new_by_index(store, v, i)` yields exactly the sorted pairs of version v from position i on (none if i >= number of keys).", "quantifier": "all histories, readable versions and indices", "why_tests_cant": "all tree shapes and positions", "anchors": ["src/iterator.rs::new_by_index", "src/iterator.rs::skip_leaves"]}
{"id": "C28", "title": "exclusion proofs name the true neighbours", "statement": "For an absent key in a non-empty version, `get_with_exclusion_proof` returns the proof(s) of the greatest smaller and/or least greater key present, Leftmost/Rightmost exactly when there is no smaller/greater key.", "quantifier": "all histories, readable non-empty versions, absent keys", "why_tests_cant": "all tree shapes; neighbours may be far up and down the tree", "anchors": ["src/tree.rs::get_with_exclusion_proof", "src/tree.rs::get_bounding_path", "src/tree.rs::search_closest_extreme_node"]}
{"id": "C29", "title": "exclusion proofs verify; present keys get existence proofs", "statement": "Every neighbour proof inside an exclusion proof verifies as existence of that neighbour with its value; for a present key `get_with_exclusion_proof` returns its value and existence proof.", "quantifier": "all histories, readable versions, keys", "why_tests_cant": "all tree shapes", "anchors": ["src/tree.rs::get_with_exclusion_proof"]}
{"id": "C30", "title": "no exclusion proof for an empty tree", "statement": "`get_with_exclusion_proof` (hence `get_with_ics23_proof`) returns an error (the one about the empty tree), not a proof, for every key of an empty version, although `get_with_proof` does produce a valid non-existence proof there.", "quantifier": "all histories leading to an empty version, all keys", "why_tests_cant": "all histories", "anchors": ["src/tree.rs::search_for_closest_node"]}
{"id": "C31", "title": "range proofs verify (completeness)", "statement": "For key present at v, `get_range_proof(key, v)` verifies against root(v) with the leaf of key and the left siblings determined by the keys smaller than key.", "quantifier": "all histories, readable versions, keys present", "why_tests_cant": "all tree shapes", "anchors": ["src/tree.rs::get_range_proof", "src/types/proof/definition.rs::SparseMerkleRangeProof::verify"]}
{"id": "C32", "title": "range proofs are sound", "statement": "If `SparseMerkleRangeProof::verify(root(m), leaf, left_siblings)` accepts, then the leaf is in m and the left siblings are exactly the left sibling hashes on its path, or an explicit hash collision exists.", "quantifier": "all maps, adversarial range proofs and siblings", "why_tests_cant": "adversarial inputs", "anchors": ["src/types/proof/definition.rs::SparseMerkleRangeProof::verify"]}
{"id": "C33", "title": "restore reproduces the tree for any chunking", "statement": "Feeding the sorted contents of a non-empty map in any division into non-empty chunks, each with its honest range proof, then `finish`, succeeds and leaves in the store a tree at the given version whose root hash, values and proofs are those of the map.", "quantifier": "all non-empty maps, all chunk divisions", "why_tests_cant": "number of chunkings is exponential; rightmost-spine bookkeeping", "anchors": ["src/restore.rs::add_chunk_impl", "src/restore.rs::add_one", "src/restore.rs::finish_impl"]}
{"id": "C34", "title": "restore resumes after a crash", "statement": "After a crash between chunks, reopening the restore from the store and continuing with all keys greater than the rightmost stored leaf gives the same final store.", "quantifier": "all maps, all chunkings, all crash points between chunk writes", "why_tests_cant": "crash points times chunkings", "anchors": ["src/restore.rs::recover_partial_nodes", "src/restore.rs::new"]}
{"id": "C35", "title": "restore rejects chunks that are not part of the expected tree", "statement": "If `add_chunk` accepts a chunk sequence against root(m) then all keys and values given so far are exactly the first entries of m, or an explicit collision exists; a rejected chunk writes nothing to the store (if the store holds no value of a later version than the one restored; see C86 for the other stores).", "quantifier": "all maps, adversarial chunks and proofs", "why_tests_cant": "adversarial inputs", "anchors": ["src/restore.rs::add_chunk_impl", "src/restore.rs::verify"]}
{"id": "C36", "title": "finish checks the expected root (refuted)", "statement": "`finish` succeeding implies the store has the expected root. FALSE of the code: finishing early writes the root of the keys received so far without comparing it to the expected root hash.", "quantifier": "all restore runs", "why_tests_cant": "needs an incomplete run", "anchors": ["src/restore.rs::finish_impl"]}
{"id": "C37", "title": "nibble paths behave as nibble sequences", "statement": "push, pop, last, get_nibble, get_bit, bits, nibbles, num_nibbles on the packed byte representation behave as on a plain sequence of at most 64 nibbles; equal sequences have equal representation. `new` and `new_odd` accept exactly the byte strings of at most 32 bytes, `new_odd` only with a zero last half byte, and panic on all others.", "quantifier": "all nibble sequences of length <= 64 and all operation sequences", "why_tests_cant": "parity and masking cases at every length", "anchors": ["src/types/nibble/nibble_path.rs"]}
{"id": "C38", "title": "nibble range iterator partitions sorted keys", "statement": "Over a sorted key list whose keys agree before the given nibble, the iterator yields consecutive ranges covering the list exactly once, one per distinct nibble, in increasing order.", "quantifier": "all sorted key lists, all nibble positions", "why_tests_cant": "binary search over every list length", "anchors": ["src/types/nibble.rs::NibbleRangeIterator"]}
{"id": "C39", "title": "every committed version has a root, even no-op ones", "statement": "After committing a value set that changes nothing (empty, or deleting absent keys) the new version has a root equal to the previous one, and all reads at it work.", "quantifier": "all histories starting at version 0, all value sets without effect", "why_tests_cant": "all histories", "anchors": ["src/tree_cache.rs::freeze"]}
{"id": "C40", "title": "a first version above 0 (refuted)", "statement": "Starting an empty store at any first version v gives a readable version v. FALSE of the code: with v > 0 and a value set without effect, the empty root is written at v-1 and version v has no root.", "quantifier": "all first versions", "why_tests_cant": "corner case", "anchors": ["src/tree_cache.rs::freeze", "src/tree_cache.rs::new"]}
{"id": "C41", "title": "writing after a gap is rejected or continues (refuted)", "statement": "Committing at a version whose predecessor is missing either fails or builds on the latest version. FALSE of the code: it silently starts from an empty tree, so the root no longer covers the older keys that `get` still returns.", "quantifier": "all stores and versions", "why_tests_cant": "corner case", "anchors": ["src/tree_cache.rs::new", "src/tree.rs::insert_at"]}
{"id": "C42", "title": "ICS23 existence conversion is faithful", "statement": "The ICS23 existence proof made from a proof of (key, value) computes, by the ICS23 rules (leaf op, then inner ops), exactly the root hash that the sparse Merkle proof computes.", "quantifier": "all keys, values and proofs with at most 256 siblings", "why_tests_cant": "all bit patterns and sibling counts", "anchors": ["src/tree/ics23_impl.rs::sparse_merkle_proof_to_ics23_existence_proof"]}
{"id": "C43", "title": "ICS23 non-existence proofs are complete", "statement": "For an absent key in a non-empty version with preimages known, `get_with_ics23_proof` returns the two true neighbours with existence proofs whose computed roots equal root(v).", "quantifier": "all histories, keys", "why_tests_cant": "all tree shapes", "anchors": ["src/tree/ics23_impl.rs::get_with_ics23_proof", "src/tree/ics23_impl.rs::exclusion_proof_to_ics23_nonexistence_proof"]}
{"id": "C44", "title": "the ICS23 spec admits every proof (refuted)", "statement": "Every proof made by `get_with_ics23_proof` satisfies the depth bounds of `ics23_spec`. FALSE of the code: max_depth is 64 but a path has up to 256 inner ops.", "quantifier": "all trees", "why_tests_cant": "needs keys with a common prefix above 64 bits, infeasible with a real hash in a test", "anchors": ["src/tree/ics23_impl.rs::ics23_spec"]}
{"id": "C45", "title": "Borsh round trips", "statement": "Deserialising the Borsh serialisation of a proof, range proof, update proof, node key, node or update batch returns the original value and consumes exactly its bytes.", "quantifier": "all values of these types", "why_tests_cant": "unbounded sizes", "anchors": ["src/types/proof/definition.rs", "src/node_type.rs", "src/types/nibble/nibble_path.rs", "src/writer.rs"]}
{"id": "C46", "title": "append_value_set and pruning (refuted)", "statement": "After `append_value_set` at the latest version and purging at it, the latest version stays readable. FALSE of the code: the root key it rewrites is also marked stale at the same version, and purging deletes the live root.", "quantifier": "all stores", "why_tests_cant": "corner case", "anchors": ["src/tree.rs::append_value_set", "src/tree_cache.rs::new_overwrite"]}
{"id": "C47", "title": "pre-genesis state (refuted)", "statement": "A version-0 commit without effect on top of a pre-genesis state keeps that state readable at version 0. FALSE of the code: no root is written at version 0, and version 1 then starts from an empty tree.", "quantifier": "all pre-genesis states", "why_tests_cant": "corner case", "anchors": ["src/tree_cache.rs::new", "src/tree_cache.rs::freeze"]}
{"id": "C48", "title": "key order is byte order", "statement": "The nibble-wise order used by the tree traversals is the byte-lexicographic order of keys; common-prefix lengths in bits and nibbles agree with the first differing bit.", "quantifier": "all pairs of keys", "why_tests_cant": "2^512 pairs", "anchors": ["src/bytes32ext.rs", "src/types/nibble.rs"]}
{"id": "C49", "title": "proof size bound", "statement": "A proof returned for any key has at most 256 siblings; for a map of n keys the sibling count is 0 when n <= 1.", "quantifier": "all histories, keys, versions", "why_tests_cant": "all tree shapes", "anchors": ["src/tree.rs::get_with_proof"]}
{"id": "C50", "title": "proofs are unique", "statement": "Two proofs that both verify for the same key against root(m) are equal (same leaf and siblings), or an explicit hash collision exists: proofs are not malleable.", "quantifier": "all maps, adversarial proofs", "why_tests_cant": "adversarial inputs", "anchors": ["src/types/proof/definition.rs::verify"]}
{"id": "C51", "title": "the value history never goes backwards", "statement": "Writing values of an older version for a key is refused by the store and leaves the key's history unchanged; within reachable histories per-key versions are strictly increasing.", "quantifier": "all stores, keys, versions", "why_tests_cant": "all histories", "anchors": ["src/mock.rs::put_value"]}
{"id": "C52", "title": "internal node hashing", "statement": "The hash of an internal node equals the binary sparse Merkle fold over its 16 child slots where an empty range is the placeholder and a range with a single leaf child is that leaf's hash; siblings returned for a child recombine to it.", "quantifier": "all sets of children (3^16 leaf/internal/empty patterns, all hashes)", "why_tests_cant": "exhaustive enumeration with arbitrary hashes is impossible", "anchors": ["src/node_type.rs::merkle_hash", "src/node_type.rs::generate_bitmaps", "src/node_type.rs::get_child_with_siblings_helper"]}
{"id": "C53", "title": "given node hashes are checked (refuted)", "statement": "`batch_put_value_sets` with caller-supplied node hashes rejects hashes that do not belong to the nodes. FALSE of the code: a wrong hash is taken as is, the call succeeds and returns (and stores) a root hash that is not the root of the entries. Nor is a hash missing from the table computed, as the comment on get_hash says: the call panics.", "quantifier": "all hash tables given", "why_tests_cant": "the tests only pass None or right hashes; the claim is about every table", "anchors": ["src/tree.rs::get_hash", "src/tree.rs::batch_put_value_sets"]}
{"id": "C54", "title": "Children is a map from nibbles", "statement": "Every sequence of `insert` and `remove` on a new `Children` succeeds; `get` returns the last inserted child that was not removed, `num_children` and `is_empty` count the occupied nibbles exactly, and `values`/`iter`/`iter_sorted` list each occupied nibble once in increasing order.", "quantifier": "all sequences of operations on all nibbles and children", "why_tests_cant": "the counter is maintained apart from the array; the claim is about every sequence", "anchors": ["src/node_type.rs::Children"]}
{"id": "C55", "title": "deserialised values are well formed (refuted)", "statement": "Every node key or node that Borsh deserialisation accepts is one that the API could have built: paths hold the nibbles they claim, the child counter is the number of children, internal nodes have children. FALSE of the code: the derived deserialisers check none of this, and using such values panics.", "quantifier": "all byte strings", "why_tests_cant": "the claim is about every accepted byte string; round-trip tests only see well-formed values", "anchors": ["src/types/nibble/nibble_path.rs::NibblePath", "src/node_type.rs::Children", "src/node_type.rs::InternalNode"]}
{"id": "C56", "title": "node paths fit in 64 nibbles", "statement": "Every node key that an update writes or marks stale has a path of at most 64 nibbles, so the length assertion of `NibblePath::push` never fires while a tree is updated.", "quantifier": "all histories, all write sets", "why_tests_cant": "needs keys with 60 or more common nibbles, and the claim covers every tree shape", "anchors": ["src/types/nibble/nibble_path.rs::push", "src/node_type.rs::gen_child_node_key", "src/tree.rs"]}
{"id": "C57", "title": "ICS23 verification with the published spec is sound", "statement": "A light client that accepts an ICS23 membership proof (key, value) against root(v) with `ics23_spec()` learns that the key has that value in version v; one that accepts a non-membership proof learns that the key is absent; whoever made the proof, unless it exhibits a hash collision or a preimage of the placeholder.", "quantifier": "all maps, keys, values and all (adversarial) ICS23 proofs", "why_tests_cant": "all adversarial proofs, including odd prefixes, suffixes, path lengths and neighbours", "anchors": ["src/tree/ics23_impl.rs::ics23_spec"]}
{"id": "C58", "title": "every present entry has an ICS23 proof that verifies (refuted)", "statement": "For every key present at a readable version, the ICS23 proof returned by `get_with_ics23_proof` verifies against root(v). FALSE of the code: an entry with an empty value (or empty key preimage) is accepted by the tree and its sparse Merkle proof verifies, but the ICS23 proof made for it verifies against no root; only empty keys are documented.", "quantifier": "all histories, keys and values", "why_tests_cant": "all values, including the empty one, under all tree shapes", "anchors": ["src/tree/ics23_impl.rs::get_with_ics23_proof", "src/lib.rs"]}
{"id": "C59", "title": "hash format, bit order and key order", "statement": "Keys are 256-bit big-endian numbers: bit i of the path is the i-th most significant bit, a set bit goes right, and the key order used by iteration, range proofs and exclusion proofs is the numeric order. A leaf hashes \"JMT::LeafNode\" || key hash || value hash, an internal node \"JMT::IntrnalNode\" || left || right, the empty tree is \"SPARSE_MERKLE_PLACEHOLDER_HASH__\"; the two preimages never coincide and each determines its parts.", "quantifier": "all keys, bit positions, hashes", "why_tests_cant": "all 2^256 keys and all pairs of hashes", "anchors": ["src/types/proof.rs::INTERNAL_DOMAIN_SEPARATOR", "src/types/proof.rs::LEAF_DOMAIN_SEPARATOR", "src/lib.rs::SPARSE_MERKLE_PLACEHOLDER_HASH", "src/node_type.rs", "src/types/nibble/nibble_path.rs::bits"]}
{"id": "C60", "title": "a crash while writing or purging keeps every readable version", "statement": "If the writes of an update batch (nodes, values, stale indices) stop at any point and in any order, every version that was readable before still reads as before: values, proofs that verify, root hash, leaf count, exclusion proofs and iteration. The same holds for the versions a purge keeps, if the purge stops at any point.", "quantifier": "all histories, commits, purges, subsets and orders of the single writes, readable versions, keys", "why_tests_cant": "every subset and order of the single writes of every batch", "anchors": ["src/mock.rs::write_tree_update_batch", "src/mock.rs::purge_stale_nodes", "src/tree.rs::put_value_sets", "src/writer.rs"]}
{"id": "C61", "title": "redoing an interrupted commit", "statement": "After a crash in the middle of writing a batch, committing again at the same version. TRUE: unless some write empties the tree on the way, computing the commit again over any leftovers, even of other value sets, gives the batch and roots of the undisturbed commit; and redoing the same single version, when no stale node index was written yet, gives exactly the store of the undisturbed commit. FALSE in general: redoing the same commit can mark the live root stale, so that the next purge loses the latest version; committing another set can bring back data of the lost attempt and deleted data; with stale indices or values of a later version already written, the commit cannot be redone. So the batch must be written atomically, as the module documentation asks.", "quantifier": "all histories, value sets, crash points", "why_tests_cant": "needs a crash between the single writes and a value set that empties the tree on the way", "anchors": ["src/tree.rs::put_value_sets", "src/tree_cache.rs::get_node_option", "src/mock.rs::write_tree_update_batch"]}
{"id": "C62", "title": "appending to the latest version (refuted)", "statement": "With the migration feature, append_value_set on the latest version accepts any value set, gives the root of the extended contents, can be repeated, and leaves a version that survives a purge up to it. FALSE of the code in five ways: the replaced root is recorded as stale since the very version whose new root has the same key, so a purge up to that version removes the live root; the latest version is refused as not being the latest when the greatest key was last written earlier; the call panics when the set empties the tree on the way; a second append to the same version cannot be written; a set that deletes every key and then a key that is not there returns the old root, and the old tree stays readable beside the deleted values.", "quantifier": "all histories and value sets", "why_tests_cant": "the five failures need an append followed by a purge, an append after a version that leaves the greatest key alone, a set that empties the tree on its way, two appends in a row, and a deletion that meets an empty tree", "anchors": ["src/tree.rs::append_value_set", "src/tree_cache.rs::new_overwrite", "src/mock.rs::write_tree_update_batch"]}
{"id": "C63", "title": "reads concurrent with commits and purges", "statement": "A query about a readable version answers with that version's contents, root hash, proofs and range proofs even while commits and purges run that keep the version: every single node and value the query asks for may be answered from a different state of the store, also in the middle of a write. A proof obtained so is the very proof of the undisturbed store, and an iterator yields exactly the entries of its version, in order, however many commits and purges happen between and during its steps.", "quantifier": "all histories, readable versions, keys, and all readers that answer each node and value request from any state the store passes through afterwards (between operations, in the middle of writing a batch, in the middle of a purge) while the version stays readable", "why_tests_cant": "the interleavings of a reader's requests with the single writes of any number of later operations are unbounded", "anchors": ["src/mock.rs::MockTreeStore (RwLock per request)", "src/tree.rs::get_with_proof", "src/tree.rs::get_range_proof", "src/tree.rs::get_leaf_count", "src/iterator.rs::JellyfishMerkleIterator", "src/reader.rs::TreeReader"]}
{"id": "C64", "title": "purged versions never answer wrongly", "statement": "Whatever a query about a committed version answers - value, proof, root hash, leaf count, range proof, exclusion proof, the items of an iterator - is true of that version, also when the version has been purged or is being purged while the query runs: a query may fail, but never gives the contents, root or proofs of something else. FALSE that such a query fails with an error: after a purge, a proof query about an older version whose root was kept (a version that changed nothing) panics on a missing sibling.", "quantifier": "all histories of commits and purges, all versions committed (readable or not), all keys, and all readers that answer each node and value request from any state the store passes through afterwards", "why_tests_cant": "ranges over all histories, all purge points and all interleavings of a query with the removals of a purge", "anchors": ["src/tree.rs::get_with_proof", "src/tree.rs::get_with_exclusion_proof", "src/tree.rs::get_range_proof", "src/tree.rs::get_root_hash", "src/iterator.rs::JellyfishMerkleIterator", "src/node_type.rs::build_sibling", "src/mock.rs::purge_stale_nodes"]}
{"id": "C65", "title": "iteration over a store whose requests fail now and then", "statement": "However many node and value requests fail, while the iterator is built and during the calls of next(): no call panics, the entries given are the first entries of the version in order and without gaps or repetitions, the end is announced only after all of them, and a call during which nothing fails gives an entry or the end. FALSE for a version with exactly one entry: a failed value request loses the entry, the iterator then ends.", "quantifier": "all histories, versions whose contents are not a single entry, starting keys and indices, and all sequences of readers each of whose requests is answered from any state the store passes through or fails", "why_tests_cant": "any request of any call may fail, any number of times, at any depth of the descent", "anchors": ["src/iterator.rs::next", "src/iterator.rs::cleanup_stack", "src/iterator.rs::new", "src/iterator.rs::new_by_index"]}
{"id": "C66", "title": "a restored store can be continued", "statement": "After a non-empty tree has been restored (any chunks, any crashes, then `finish`) as version v into an empty store, any further commits starting at version v+1, mixed with any purges, succeed; each further version and v itself, unless purged, reads as the restored contents with the further value sets applied (values, proofs, roots, counts, range and exclusion proofs, iteration); the roots returned are those a store with the full history returns for the same value sets; update proofs verify.", "quantifier": "all histories and readable versions of the source, all chunkings and crash points of the restore, all target versions, all sequences of commits and purges afterwards", "why_tests_cant": "ranges over all source trees, restores and continuations; the restored nodes all carry one version, unlike those left by commits", "anchors": ["src/restore.rs::finish_impl", "src/tree.rs::put_value_sets", "src/tree.rs::put_value_sets_with_proof", "src/mock.rs::purge_stale_nodes", "src/mock.rs::write_node_batch"]}
{"id": "C67", "title": "a store may begin at any version", "statement": "On an empty store, a first batch of value sets may be committed at any version v, provided its first value set inserts something: the commit and all following consecutive commits and purges succeed, the roots returned are those of the successive contents, and every version from v on that was not pruned reads (values, proofs, root, leaf count, range and exclusion proofs, iteration) exactly as its contents. (C40 says what happens when the first value set inserts nothing.)", "quantifier": "all first versions v, all first batches (with or without proofs) whose first value set inserts a key, all continuations by commits and purges", "why_tests_cant": "Tests begin at version 0 or at one fixed later version; the claim ranges over every version number, tree shape and continuation.", "anchors": ["src/tree.rs::put_value_sets", "src/tree_cache.rs::new", "src/tree_cache.rs::freeze", "src/tree.rs::insert_at"]}
{"id": "C68", "title": "An accepted append changes the latest version and nothing else", "statement": "With the migration feature, when append_value_set on the latest version is accepted and no deletion in the set meets an empty tree, it returns the root of the latest contents with the set applied; its batch can be written over the store; the latest version then reads (values, proofs, root, leaf count, range and exclusion proofs, iteration) as those contents; every older readable version reads as before; and any sequence of further commits returns the right roots and leaves all these versions readable. The call is accepted exactly when the reader's rightmost leaf was written at the latest version, for instance when the latest value set brought in a key greater than every key written so far.", "quantifier": "all histories of commits and purges, all readers of the store (any choice among equal rightmost keys), all value sets without a deletion from an empty tree, all sequences of later commits", "why_tests_cant": "the append rewrites nodes of a committed version in place, beside nodes shared with older versions, for any history and any set, and its effect on later commits shows only in the histories that follow", "anchors": ["src/tree.rs::append_value_set", "src/tree_cache.rs::new_overwrite", "src/mock.rs::put_value"]}
{"id": "C69", "title": "restoring beside older versions", "statement": "A restore opened with `new_overwrite` as version v on a store that already holds versions below v (any commits and purges, v above all of them) accepts the honest chunks whatever their sizes and finishes; afterwards every proof, root hash, leaf count, range proof and iterator of version v is that of the restored tree, and every version readable before reads as before. `get` at version v is NOT a read of the restored tree: for a key the tree lacks it returns the value an older version left (refuted part). `new`, unlike `new_overwrite`, panics or fails on every never-purged store that holds a non-empty version (refuted part).", "quantifier": "all histories of the target store, all restored trees, versions and chunk sizes; for `new`: all purge-free histories", "why_tests_cant": "the tests restore into empty or half-restored stores only; the claim is about every earlier history", "anchors": ["src/restore.rs::new_overwrite", "src/restore.rs::new", "src/restore.rs::recover_partial_nodes", "src/mock.rs::get_value_option"]}
{"id": "C70", "title": "A commit on a store that lost nodes is right or fails", "statement": "If a node store has lost any nodes other than the root node of the latest version, then put_value_sets, put_value_sets_with_proof and batch_put_value_sets either do not succeed or return exactly the root hashes, proofs and update batch that they return on the undamaged store. (When the latest root node itself is lost, the commit succeeds and silently starts from an empty tree.)", "quantifier": "every history of commits and purges, every set of lost nodes, every list of value sets, every hash function", "why_tests_cant": "A test can drop a few chosen nodes; the property speaks of every subset of nodes lost from every history and of every later commit.", "anchors": ["src/tree.rs put_value_sets, put_value_sets_with_proof, batch_put_value_sets, insert_at", "src/tree_cache.rs get_node_option, freeze", "src/node_type.rs build_sibling"]}
{"id": "C71", "title": "Commits may be computed while the store is being purged", "statement": "If, while a commit of the next version is being computed, stale nodes of the store are being purged (any number of purges, up to any version, one of them possibly half done), and each node the commit asks for is answered from any one of the states passed through, then the commit returns exactly the root hashes, proofs and update batch it returns on the store at rest.", "quantifier": "every history, every interleaving of the commit's reads with the single deletions of any purges, every list of value sets, every hash function", "why_tests_cant": "The interleavings of a commit's reads with the deletions of a purge cannot be enumerated, let alone for all histories.", "anchors": ["src/tree.rs put_value_sets, put_value_sets_with_proof, batch_put_value_sets", "src/tree_cache.rs get_node_option, delete_node", "src/mock.rs purge_stale_nodes"]}
{"id": "C72", "title": "A failed read never corrupts a result", "statement": "A node reader may fail: any call of get_node_option or get_value_option may return an error (a disk or network failure), independently of all other calls, so also after earlier calls for the same key have succeeded. Whatever calls fail, every query (get, get_with_proof, get_with_exclusion_proof, get_range_proof, get_root_hash, get_root_hash_option, get_leaf_count, creating an iterator by key or by index, and each step of an iterator) and every commit (put_value_sets, put_value_sets_with_proof, batch_put_value_sets) either fails itself or returns exactly what it returns when no call fails: no failure is taken for an absent node, an absent key or an empty tree.", "quantifier": "all readers, all queries and commits with all their arguments, all subsets of the calls that fail, with any error", "why_tests_cant": "a test injects a few faults into a few calls; the property ranges over every call of every traversal and every combination of faults, and a single place where an error is swallowed (unwrap_or, if let Ok) breaks it only on the path that reaches it", "anchors": ["src/reader.rs:10-43", "src/tree.rs:576-648", "src/tree.rs:1006-1418", "src/tree_cache.rs:154-244", "src/tree_cache.rs:290-357", "src/iterator.rs:124-349", "src/node_type.rs:503-564"]}
{"id": "C73", "title": "Queries about versions that do not exist yet", "statement": "For a version that was not committed yet, get_with_proof, get_with_exclusion_proof and get_range_proof fail with the MissingRootError naming that version, get_root_hash_option returns None, get_root_hash and get_leaf_count fail, and both ways of creating an iterator fail; nothing is answered from another version. Only get, which does not look at the tree, answers: with the value of the latest version.", "quantifier": "every history of commits and purges, every version not yet committed, every key and start, every hash function", "why_tests_cant": "Over all histories and all versions: some stored node with a lucky key could make a query for a future version succeed.", "anchors": ["src/tree.rs get_with_proof, get_root_hash_option, get_leaf_count, get", "src/types/proof or tree.rs MissingRootError", "src/iterator.rs JellyfishMerkleIterator::new, new_by_index"]}
{"id": "C74", "title": "No stored or returned version lies in the future", "statement": "After a history of n versions every version number in the store is below n: those of the nodes, those of their child links, which never point to a version after the node's own, those of the stale-node indices, where a node is always retired at a later version than it was written for, and those of the value histories. The batch returned by a commit of m versions on top of n speaks about the versions n to n+m-1 only: it adds nodes of these versions, retires nodes as of these versions and writes values at these versions.", "quantifier": "every history of commits and purges, every list of value sets, every hash function", "why_tests_cant": "The links and stale indices of every node of every history; a wrong version in one link shows only when that node is read or purged much later.", "anchors": ["src/tree.rs put_value_set, batch_insert_at, insert_at, delete_at", "src/tree_cache.rs put_node, delete_node, freeze", "src/node_type.rs Child"]}
{"id": "C75", "title": "The schedule of purges does not matter", "statement": "Two histories with the same commits in the same batches that end with the same oldest readable version leave identical stores (nodes, stale-node indices and value histories), no matter when, how often and up to which versions stale nodes were purged in between. In particular purging twice, or in steps, is purging once, and purges and commits commute as long as the purge does not concern the new versions.", "quantifier": "every pair of histories that differ in purges only, every hash function", "why_tests_cant": "Purges can be interleaved with commits in unboundedly many ways.", "anchors": ["src/mock.rs purge_stale_nodes", "src/mock.rs write_tree_update_batch", "src/tree_cache.rs freeze, delete_node"]}
{"id": "C76", "title": "Commits may be kept in memory and written together", "statement": "A NodeBatch is a pair of maps: insertions overwrite, merge and extend are union in which the later batch wins, is_empty and clear mean what they say. A client may keep the update batches of any number of successive commits in memory, merging them (NodeBatch::merge, union of stale indices, concatenation of statistics), reading through the pending batch into the store below (nodes by key, values by the newest version not after the one asked for), and write the merged batch whenever it likes, purging the store below at any time: every commit returns the same root hashes, proofs and update batch as for a client who writes every batch at once, no step fails, every readable version reads right through the pending batch, and after a flush the store is the one of that client.", "quantifier": "every sequence of commits, flushes and purges of the store below, every reader that overlays the pending batch, every hash function", "why_tests_cant": "Any number of commits may be pending, with any interleaving of flushes and purges; merging must keep values of several versions per key in order.", "anchors": ["src/writer.rs NodeBatch::new, clear, get_node, insert_node, insert_value, extend, merge, is_empty", "src/writer.rs TreeUpdateBatch", "src/reader.rs TreeReader", "src/tree.rs put_value_sets, put_value_sets_with_proof", "src/mock.rs write_tree_update_batch"]}
{"id": "C77", "title": "A failed write during a restore loses nothing", "statement": "During a restore of a tree with at least two entries, add_chunk may fail because the store refuses to write. If the client then simply goes on with the next entries, with any chunk sizes, with any of the writes failing, and with crashes and reopenings anywhere in between, every chunk is either accepted or answered with the store's own error, and once all entries have been given finish leaves a tree that reads as the original: what could not be written is written with the next chunk or by finish. From every such point the restore can be completed, also by reopening it on the store, and this last way holds for trees of one entry too. A tree of one entry whose only chunk could not be written must be reopened: finish on the same object panics.", "quantifier": "every source tree, all chunk sizes, every pattern of failed writes and crashes, every hash function", "why_tests_cant": "A failing store is not part of the test suite, and the pattern of failures, chunk boundaries and crashes is unbounded.", "anchors": ["src/restore.rs JellyfishMerkleRestore::add_chunk_impl, finish_impl, new", "src/writer.rs TreeWriter::write_node_batch"]}
{"id": "C78", "title": "A light client that holds only a root can follow the tree", "statement": "Take a client that holds nothing but a root hash. It accepts a message (new root, writes, update proofs) if verify_update accepts it and every deletion is proved with a leaf, and then holds the new root; it accepts an entry or an absent key if verify_existence or verify_nonexistence accepts it against the root it holds. Whatever a server sends, in any order and number, if the client begins with the root of contents m then every accepted message is true of m as changed by the updates accepted before it, and the root it holds is the root of the contents so reached, or a hash collision (or preimage of the placeholder) is at hand. A client that starts with the empty tree and is sent the outputs of an honest server's commits accepts all of them, ends with the root of the latest version and accepts every answer of the server about that version, provided keys are deleted only while present.", "quantifier": "every list of messages from an adversary, every history of commits with proofs and purges, every hash function", "why_tests_cant": "The adversary's messages and their interleaving are unbounded; soundness composes over the whole conversation.", "anchors": ["src/types/proof/definition.rs UpdateMerkleProof::verify_update, SparseMerkleProof::verify_existence, verify_nonexistence, leaf", "src/tree.rs put_value_sets_with_proof, get_with_proof"]}
{"id": "C79", "title": "Queries and commits cost a bounded number of requests per key", "statement": "Whatever the store answers, and however many entries and versions it holds: get asks for one value and no node; the root hash (also its optional form) and the leaf count ask for one node; get_with_proof and get_range_proof ask for at most 321 nodes and one value, get_with_exclusion_proof for at most 1156 nodes and 3 values; creating an iterator (from a key or by index) asks for at most 66 nodes and each step for at most 65 nodes and one value. A proof returned by get_with_proof has at most 256 siblings. put_value_sets asks for at most 129 nodes per write (385 with proofs, 65 in batch_put_value_sets), 2 per value set and 1 per call. The batch returned by put_value_sets, with or without proofs, holds at most 66 new nodes, one value and 129 stale entries per write, plus one node per value set and one per call.", "quantifier": "all keys, versions, value sets and stores, with every request answered arbitrarily (also by errors, and differently each time)", "why_tests_cant": "Tests measure a few trees; a bound on the work must hold for every tree, including ones with long shared prefixes or damaged nodes, where a bad loop would only show as a stall.", "anchors": ["src/tree.rs: get_with_proof, get_with_exclusion_proof, put_value_sets, put_value_sets_with_proof, batch_put_value_sets, insert_at, batch_insert_at", "src/iterator.rs: JellyfishMerkleIterator::new, next", "src/tree_cache.rs: TreeCache::new, freeze", "src/node_type.rs: get_child_with_siblings_helper"]}
{"id": "C80", "title": "Version numbers are u64: no overflow below 2^64 - 1", "statement": "As long as first_version plus the number of value sets is below 2^64, put_value_sets, put_value_sets_with_proof and batch_put_value_sets return exactly what they would with unbounded version numbers, in debug and in release builds; hence so does every history of fewer than 2^64 versions, on any store and starting at any version. Version 2^64 - 1 itself cannot be committed in a debug build: the call never succeeds, and it panics whenever it would succeed with unbounded versions. In a release build it can be committed as the last version of its call; FALSE beyond that: a further version in the same call is silently written as version 0, and get at version 2^64 - 1 then shows an entry that the tree of that version does not have.", "quantifier": "all stores, value sets and first versions; both overflow behaviours of the build", "why_tests_cant": "The boundary lies after 2^64 versions; tests start at 0 and commit a handful.", "anchors": ["src/types.rs: Version, PRE_GENESIS_VERSION", "src/tree.rs: put_value_sets, put_value_sets_with_proof, batch_put_value_sets (first_version + idx as u64)", "src/tree_cache.rs: freeze (next_version += 1), new"]}
{"id": "C81", "title": "What a client sees of a version depends on its contents only", "statement": "Two readable versions with the same contents, of any two histories and at any two version numbers, answer every query alike: get, get_with_proof (the very same proof), root hash, leaf count, range proof, exclusion proof, and the entries an iterator yields from any key or index. In particular the order of the writes to distinct keys inside a value set, and writes overridden later in the same set, do not matter in any version of a history, with or without proofs. FALSE for what is stored: the new nodes and stale entries of a commit can depend on the order of the writes in its value set.", "quantifier": "all pairs of op sequences and readable versions, keys and indexes; all permutations of value sets", "why_tests_cant": "Pairs of histories that lead to the same contents are unbounded in number and length; a test compares a few.", "anchors": ["src/tree.rs: put_value_sets, get, get_with_proof, get_range_proof, get_with_exclusion_proof, get_root_hash, get_leaf_count", "src/iterator.rs: JellyfishMerkleIterator"]}
{"id": "C82", "title": "However a store began, it serves and goes on alike", "statement": "A store that began empty, or with a first commit that inserts something at any version number, or as a restore (in any chunks, with crashes) of a readable version of another store that is in use - which may be a replica itself, to any depth - and that has since gone through any commits and purges: every readable version answers every query as its contents demand; two versions with the same contents, of any two such stores, answer every query alike, with the very same proofs; every further commit or purge succeeds, and the same value sets on the same contents give the same roots and the same update proofs, which verify; batch_put_value_sets equals put_value_sets; the store can be restored from; a crash in the middle of a commit or purge leaves every kept version as it was; and a reader that finds each node and value in a different one of the states passed through gets the answers of the undisturbed store. (The restored tree's hash inputs must not collide, and the tree must not be empty.)", "quantifier": "every chain of origins (empty, any first version, replicas of replicas), every sequence of later operations, every readable version, every crash point, every interleaving of reads", "why_tests_cant": "Tests start from an empty store or restore once and stop; chains of replicas with later commits, purges and crashes are unbounded.", "anchors": ["src/restore.rs: JellyfishMerkleRestore::{new,add_chunk,finish}", "src/tree.rs: put_value_sets, put_value_sets_with_proof, batch_put_value_sets, get_with_proof, get_with_exclusion_proof, get_range_proof, get_root_hash, get_leaf_count", "src/iterator.rs: JellyfishMerkleIterator::{new,new_by_index}", "src/mock.rs: write_tree_update_batch, purge_stale_nodes"]}
{"id": "C83", "title": "Node counts and space", "statement": "At every point of every history, the number of nodes a store holds (num_nodes), less those that wait to be purged, has grown since any earlier point by exactly the sum of new_nodes minus stale_nodes over the statistics of the batches written in between; no purge changes it. After purging up to the latest version nothing waits to be purged, and the store holds at most 64 nodes per key present, besides roots, of which each version adds at most one.", "quantifier": "all hash functions, all stores in use (empty, first commit at any version, restored, continued), all further histories of commits and purges, all purge arguments from the latest version on", "why_tests_cant": "A leak of a node per some rare shape of update is only seen by counting over every history.", "anchors": ["src/mock.rs: num_nodes, purge_stale_nodes, write_tree_update_batch", "src/tree_cache.rs: freeze, NodeStats", "src/node_type.rs"]}
{"id": "C84", "title": "Putting leaves and preimages directly", "statement": "put_leaf on a node key that is present reports an error and changes nothing. Otherwise, unless a newer value is recorded for the key, it succeeds: the leaf can be read, its value is read from the version of the leaf on, and no other node, key or earlier version is affected. If a newer value is recorded it reports an error but leaves the node behind (a defect, stated as such). A leaf put at the root of any version of an empty store makes the store equal to the one that commits that entry, so that all that is proved of stores in use holds of it. A recorded preimage is found again; recording others does not lose it; after recording the preimages of some keys each of them has one.", "quantifier": "all stores, node keys, leaves, values, versions; all sequences of recorded preimages; all hash functions", "why_tests_cant": "The cases are distinguished by the state of the store, which ranges over all stores.", "anchors": ["src/mock.rs: put_leaf, put_value, put_key_preimage, preimage"]}
{"id": "C86", "title": "What the mock store keeps when a write or a purge fails", "statement": "The mock store writes node by node, value by value, index entry by index entry, and purges in the order of its index. The step-by-step loops return and panic exactly when the whole-batch description says. Whatever the outcome, what is left behind is part of the batch (or of the purge) and nothing else. Writing a batch a second time changes nothing and panics. A commit at a version that exists already never disturbs an earlier version, whatever becomes of the write; and when it writes a root, the write panics at the first node, having replaced the root node of exactly that version (which then reports the root hash of the refused commit: a defect, stated as such) while every other readable version reads as before. A chunk of a restore that the store refuses because of later values leaves its nodes behind (a defect, stated as such).", "quantifier": "all stores and batches for the loops; all stores in use, all value sets, all existing versions for the repeated commits", "why_tests_cant": "A test cannot observe a store after a panic at every point of every batch; the claim is about all of them.", "anchors": ["src/mock.rs: write_node_batch, write_tree_update_batch, put_node, put_value, put_stale_node_index, purge_stale_nodes", "src/restore.rs: add_chunk_impl"]}
{"id": "C85", "title": "Skipped versions: separate histories in one store", "statement": "A store may hold several separate histories: a commit at a version beyond the next one (whose first set inserts something) starts from the empty tree and returns exactly what it would return on an empty store; a restore opened with new_overwrite at the next version or beyond accepts every split of the honest chunks and completes. However the store came about, by any sequence of such commits, restores, ordinary commits and purges: every further operation at the next version succeeds and has, on the youngest history, the effect it would have on a store with that history alone; a purge purges every history, keeping the last version of each; every readable version of every history answers all queries of the tree (proofs, roots, counts, ranges, exclusion proofs, iterators) with its own contents; the versions that were skipped and those not yet committed are reported as missing. get answers correctly for every key a version has, or had at an earlier readable version of its history; for another key it answers None or the last value of that key in an older history (a defect, stated as such).", "quantifier": "all sequences of commits at the next or at later versions, restores beside the existing versions, and purges, from any store in use; all versions, keys; all chunk splits; all hash functions", "why_tests_cant": "the number of histories, their gaps, and the interleaving of purges and commits are unbounded; a test fixes one layout", "anchors": ["src/tree.rs: put_value_sets, get_with_proof, get, get_root_hash_option", "src/tree_cache.rs: TreeCache::new, freeze", "src/restore.rs: JellyfishMerkleRestore::new_overwrite", "src/mock.rs: purge_stale_nodes, get_value_option"]}
{"id": "C88", "title": "Replication from a live source, end to end", "statement": "A receiver copies a version of a store that is in use: it takes the next entries with an iterator (the last delivered key excluded), requests the range proof of the last one, and adds the chunk; when it dies it reopens the restore and goes on after the rightmost leaf its own store holds. Between any two items of the iterator, and between the items and the proof, the source may be committed to, purged up to at most the copied version, or be in the middle of either. Every chunk is accepted; once the last key is delivered, finish succeeds and the new store has exactly the contents of the copied version, answers every query as the source does, and can be used and copied in turn. Fetching one item more than the tree has entries delivers the last key, whatever happened before.", "quantifier": "all sources in use of whatever origin, all readable versions, all sequences of fetches (any numbers of items) and deaths of the receiver, all interleavings of the reads with commits and purges of the source, all hash functions without a collision on the tree", "why_tests_cant": "the interleavings of reads, commits, purges and crashes, and the chunk sizes, are unbounded", "anchors": ["src/iterator.rs: JellyfishMerkleIterator::new, new_by_index, next", "src/tree.rs: get_range_proof", "src/restore.rs: new, add_chunk_impl, finish_impl", "src/mock.rs: get_rightmost_leaf, purge_stale_nodes, write_tree_update_batch"]}
{"id": "C87", "title": "Keys that are byte strings", "statement": "A client that hashes its keys with KeyHash::with sees the tree as a map from byte strings to values: unless two of the keys it wrote (up to the version asked for) or asks for have the same hash, get and get_with_proof answer with the value last written under the byte string (and the proof verifies), the leaf count is the number of byte strings present, the root hash is that of the map with the keys hashed, and iterators give the same entries in the order of the hashes. A verified proof of existence (absence) for the hash of a byte string shows that exactly this value (nothing) was last written under it, and two clients have the same root exactly if they hold the same maps of byte strings, unless the hash function is broken on the inputs concerned.", "quantifier": "all histories of commits and purges with byte-string keys of any length, all readable versions, all queried byte strings, all proofs, all hash functions", "why_tests_cant": "all byte strings, histories and hash functions; a test tries a few keys with one hash function", "anchors": ["src/lib.rs: KeyHash::with", "src/tree.rs: put_value_sets, get, get_with_proof, get_root_hash, get_leaf_count", "src/types/proof/definition.rs: verify_existence, verify_nonexistence"]}
{"id": "C89", "title": "Any store that keeps the storage contract serves the tree", "statement": "For every implementation of the storage traits whose reader returns the nodes written under their keys and, for a key and a version, the value written at the greatest version not above it, whose successful writes add exactly the batch, and whose pruning up to version l deletes any subset of the nodes recorded stale since l or earlier: every history of commits and prunes that succeeds on it returns the same roots, update proofs and batches as on the in-memory store, get answers every version, and every version not pruned answers every query (lookups, proofs, iteration, root, leaf count) with its contents. If the implementation refuses only batches that are not new, every history succeeds.", "quantifier": "all store implementations satisfying the contract, all histories, all versions, all keys", "why_tests_cant": "The traits are implemented by the user; tests exercise one implementation, and the set of conforming implementations and of partial prunings is infinite.", "anchors": ["src/reader.rs: TreeReader", "src/tree.rs: JellyfishMerkleTree::put_value_sets", "src/mock.rs: MockTreeStore", "src/writer.rs: TreeWriter, NodeBatch, TreeUpdateBatch, StaleNodeIndex"]}
{"id": "C90", "title": "Superseded values may be pruned", "statement": "Let a store keep the contract of C89, except that pruning up to version l may also delete value records, as long as it changes none and the value of every key at l and at every later version stays what it was. Then every history that succeeds gives the same roots, update proofs and batches as on a store that keeps all values, and every version not pruned answers every query (get, proofs, root, leaf count, range and exclusion proofs, iteration from a key or an index) with its contents. If the store refuses only batches that are not new, every history succeeds.", "quantifier": "all store implementations satisfying the contract, all choices of values to delete, all histories, all versions, all keys", "why_tests_cant": "The iterator reads a value at the version of its leaf node, which may lie below the pruning version; that no such read needs a superseded record depends on every history and every choice of deletions.", "anchors": ["src/reader.rs: TreeReader::get_value_option", "src/iterator.rs: JellyfishMerkleIterator::next", "src/tree.rs: JellyfishMerkleTree::get, put_value_sets", "src/writer.rs: NodeBatch"]}
{"id": "C91", "title": "Any conforming store, however it began", "statement": "Let a store keep the contract of TreeReader and TreeWriter: it returns the nodes and values written, the rightmost leaf is a stored leaf with the greatest key, a successful write adds the batch, pruning removes nothing but nodes that are stale early enough. However the store began - empty, with its first commit at any version, or by restoring (in chunks of any sizes, with crashes and reopenings in between) version vs of any source that answers like a store in use - and whatever commits and prunings followed: all queries at readable versions answer with the contents of the version, exactly as the mock store would, so the store is a source in its turn; put_value_set(s), the variants with proofs and batch_put_value_sets return the same roots, proofs and batches as on the mock store. If the store refuses only what is not new, then no restore from such a source, no first commit and no further operation fails.", "quantifier": "all store implementations satisfying the contract, all origins (nested replicas included), all chunk sizes, all crash points between chunks, all further histories, all versions, all keys", "why_tests_cant": "A test exercises one store implementation, one chunking and one history; the claim is about every implementation that satisfies the trait contract and every way to arrive at a state.", "anchors": ["src/restore.rs: JellyfishMerkleRestore::new, recover_partial_nodes, add_chunk_impl, finish_impl", "src/reader.rs: TreeReader", "src/writer.rs: TreeWriter", "src/tree.rs: put_value_sets, put_value_sets_with_proof, batch_put_value_sets"]}
{"id": "C92", "title": "Arbitrary calls on a restore into any conforming store", "statement": "Let a store keep the contract of TreeReader and TreeWriter (C91) and start empty. Whatever chunks and proofs are given to a restore of expected root R into it, in whatever order, whichever of its writes the store refuses, and wherever the restore is opened again: when a chunk is accepted, the entries given to it so far are exactly the entries of the tree with root R up to the last key given; no value but those of that tree can ever be read from the store; and if the last accepted chunk ends with the greatest key of the tree, then finish leaves the expected tree, so that every query at the restored version answers with it. Otherwise a collision or a preimage of the placeholder hash is among the hashed inputs.", "quantifier": "all store implementations satisfying the contract, all sequences of chunks, proofs and reopenings, all write refusals, all trees", "why_tests_cant": "The chunks and proofs come from an untrusted peer and the store may fail at any write: no finite set of inputs covers the attacker's choices, and the claim is for every store implementation.", "anchors": ["src/restore.rs: JellyfishMerkleRestore::new, add_chunk_impl, verify, finish_impl", "src/reader.rs: TreeReader::get_rightmost_leaf", "src/writer.rs: TreeWriter::write_node_batch"]}
{"id": "C93", "title": "Crashes and concurrent readers on any conforming store", "statement": "Let a store keep the contract of TreeReader and TreeWriter (C89, C91), however it began. Let it crash at any point after its first state: between two operations, after any part of the nodes, values and stale indices of a commit's batch has been written, or after any part of the nodes (and index entries) of a pruning has been removed. Then every version that is kept reads exactly as before. A reader that answers each request from a different such state (one that runs beside commits and prunings, or is interrupted by crashes) answers every query as the undisturbed store does. After a crash in the middle of a commit, any commit at the same version that does not empty the tree on the way returns the roots and the batch it would have returned without the attempt; writing the same batch again completes the commit, and the store goes on as ever. A crash in the middle of pruning counts as the pruning, and the store goes on as ever.", "quantifier": "all store implementations satisfying the contract, all origins and histories, all crash points, all interleavings of reads with writes and prunings, all commits after the crash", "why_tests_cant": "The crash points and interleavings are subsets of unbounded batches, at every point of every history, on every store implementation.", "anchors": ["src/tree.rs: JellyfishMerkleTree::put_value_sets, get, get_with_proof", "src/tree_cache.rs: TreeCache::new", "src/reader.rs: TreeReader", "src/writer.rs: TreeWriter::write_node_batch, TreeUpdateBatch, StaleNodeIndex"]}
{"id": "C94", "title": "Which hashers the tree is sound with: hashing in pieces", "statement": "The tree feeds the hasher in pieces (separator, then the two hashes). With every SimpleHasher whose digest depends only on the concatenation of what it was fed - it is enough that feeding two pieces is feeding them at once, and that an empty piece changes nothing - a node's hash is the hash function applied to the explicit bytes (separator, hash, hash), so that all the other properties apply. FALSE of the public TransparentHasher: it overwrites its buffer from the start with each piece, so an internal node hashes to its right child and a leaf to the hash of its value; trees with different contents have the same root, and an inclusion proof for a value the tree does not have is accepted for its root.", "quantifier": "all hasher implementations, all nodes", "why_tests_cant": "the hasher is a type parameter chosen by the user; tests run with SHA-256 or with TransparentHasher and do not compare roots of different contents", "anchors": ["src/lib.rs::SimpleHasher", "src/lib.rs::TransparentHasher", "src/types/proof.rs::SparseMerkleInternalNode::hash", "src/types/proof.rs::SparseMerkleLeafNode::hash"]}
{"id": "C95", "title": "What is logged identifies what it is about", "statement": "The key hasher logs the key beside its hash to allow cross-referencing. The logged text of a key consists of printable ASCII characters only and can be read back in one way only, whatever follows it in the log: two keys with the same text are the same key. Two hashes (key hashes, value hashes, roots) with the same Debug text are the same, and so are two paths.", "quantifier": "all keys (byte strings of any length), all hashes, all paths, any text following", "why_tests_cant": "an ambiguity would need two colliding byte strings of arbitrary length", "anchors": ["src/lib.rs::EscapedByteSlice", "src/lib.rs::KeyHash::with", "src/lib.rs: Debug for KeyHash, ValueHash, RootHash", "src/types/nibble/nibble_path.rs: Debug for NibblePath"]}
{"id": "C96", "title": "Each request on its own, on any conforming store", "statement": "Let a store keep the contract of TreeReader and TreeWriter (C89, C91), however it began, and let it go on committing, pruning and crashing (C93) while a query is running. Each single call of get_node_option or get_value_option that the query makes may find the store in a different one of these states - also two calls for the same key - and may fail. As long as the version asked about is kept, every query (get, get_with_proof, get_with_exclusion_proof, get_range_proof, get_root_hash, get_root_hash_option, get_leaf_count, creating an iterator by key or by index) returns what it returns on the store at rest, and an iterator yields exactly the entries of the version in order, or, where calls fail, the query or step fails. A commit (put_value_sets, put_value_sets_with_proof, batch_put_value_sets) that runs while the store is being pruned, each of its calls finding the store at any stage of any prunings, returns the roots, proofs and batch it returns on the store at rest, or, where calls fail, fails.", "quantifier": "all store implementations satisfying the contract, all origins and histories, all assignments of states and failures to the single calls, all queries and commits with all their arguments", "why_tests_cant": "The schedules assign a state of an unbounded history to every call of every traversal; a test runs a handful of schedules on one store.", "anchors": ["src/reader.rs:10-43", "src/writer.rs", "src/tree.rs: get, get_with_proof, get_with_exclusion_proof, get_range_proof, get_root_hash, get_root_hash_option, get_leaf_count, put_value_sets, put_value_sets_with_proof, batch_put_value_sets", "src/iterator.rs: JellyfishMerkleIterator::new, new_by_index, next", "src/tree_cache.rs:154-357"]}
{"id": "C97", "title": "JSON form (serde)", "statement": "Reading back the JSON text of a hash, nibble, proof node, proof, update or range proof, nibble path, node key, child or node gives the original value, and different values of a type have different texts; whatever text is accepted, the value read is one of the type and is written and read back unchanged. A proof sent as JSON verifies for the client who reads it, every node a commit stores (and its key) can be written and read back, and no text makes a client believe a wrong answer short of a hash collision, or panic. FALSE of the code: that a value has only one accepted text (white space, member order, unknown members, array form, missing optional member do not matter), and that an accepted path, nibble, children or node could have been built by the API (the derived readers check nothing, and using such values panics).", "quantifier": "all values of these types with machine integers below 2^64, all byte strings, all histories of a store", "why_tests_cant": "the tests round-trip random proofs only; the claims about accepted texts range over all byte strings, and injectivity over all pairs of values", "anchors": ["src/types/proof/definition.rs::SparseMerkleProof", "src/types/proof.rs::SparseMerkleNode", "src/node_type.rs::Node", "src/types/nibble/nibble_path.rs::NibblePath", "src/types/nibble.rs::Nibble", "src/lib.rs::KeyHash"]}
{"id": "C98", "title": "The SHA-256 tree (Sha256Jmt)", "statement": "SHA-256 as the tree uses it - fed separator, hash, hash, with complete blocks compressed as they arrive - gives for every division of the data into pieces the FIPS 180-4 digest of the whole, always of 32 bytes; so nodes hash to SHA-256 of their explicit bytes and every other property applies to Sha256Jmt. The root computed for each of the repository's published test vectors is the one in the file, and is the sparse Merkle root of its contents.", "quantifier": "all messages and all divisions into pieces; the three published vectors for the roots", "why_tests_cant": "hashing in pieces has unboundedly many divisions; the vectors themselves are tests, used here to check the model against the published data", "anchors": ["src/tree.rs::Sha256Jmt", "src/lib.rs::SimpleHasher", "src/tests/vectors.rs", "src/tests/sha2_256_vectors.json"]}
{"id": "C99", "title": "purged versions never answer wrongly on any store that keeps the contract", "statement": "On any store of the user's own that keeps the contract of TreeReader and TreeWriter (C89), which may delete stale nodes late or never, and which may crash in the middle of pruning or of writing the batch of a commit (which is then written again), whatever a query about a committed version answers is true of that version, also when it has been pruned or is being pruned while the query runs; so is every item that an iterator gives.", "quantifier": "all stores that conform, all histories with crashes, all versions committed, all keys, and all readers that answer each node and value request from any state the store passes through afterwards", "why_tests_cant": "ranges over all implementations of the traits, all histories, crash points and interleavings", "anchors": ["src/reader.rs::TreeReader", "src/writer.rs::TreeWriter", "src/tree.rs::get_with_proof", "src/tree.rs::get_with_exclusion_proof", "src/tree.rs::get_range_proof", "src/tree.rs::get_root_hash", "src/iterator.rs::JellyfishMerkleIterator", "src/writer.rs::StaleNodeIndex"]}
{"id": "C100", "title": "ICS23 proofs from any store that keeps the contract, at any time", "statement": "On any store of the user's own that keeps the contract of TreeReader and TreeWriter (C89), get_with_ics23_proof about a version that is kept answers - if requests do not fail and the preimages of the neighbours of the key are known - with the value and an ICS23 proof that a light client accepts, or with an ICS23 proof of absence that names the true neighbours and is accepted, also when each single request (for a node, a value, or the preimage of a key hash) finds another of the states the store passes through while it commits, prunes and crashes. If requests fail, or the version is purged, whatever it answers is still right; on any reader at all, failures change a result only into an error (or a panic).", "quantifier": "all conforming stores, all histories with crashes, all versions, all raw keys, all interleavings of single requests with the life of the store, all patterns of failing requests, and all honest stores of preimages", "why_tests_cant": "ranges over all implementations of the traits, histories and interleavings", "anchors": ["src/tree/ics23_impl.rs::get_with_ics23_proof", "src/tree/ics23_impl.rs::exclusion_proof_to_ics23_nonexistence_proof", "src/reader.rs::HasPreimage", "src/reader.rs::TreeReader"]}
{"id": "C101", "title": "Layout of the serialised forms", "statement": "The Borsh bytes of a leaf, proof, range proof, update proof, node key, node and update batch are exactly those of the published layout: fields in declaration order, integers little endian in 4 (lengths), 8 (versions, counts) bytes, one tag byte for each enum variant and option, paths as the number of nibbles and two nibbles per byte (high half first), children as sixteen optional places followed by the two counters, the maps of a batch as counted lists in increasing key order (version, then path length, then nibbles). These bytes, and no others, are read back as the value; so data written by one program, or by another implementation of the layout, is read by another. Every proof the tree returns takes at most 69 + 65*256 bytes, however large the tree. The JSON texts of proofs are likewise exactly the compact serde ones. FALSE: that the byte order of serialised node keys is the order of the node keys (versions are little endian), so a store sorted by these bytes is not sorted by version.", "quantifier": "all values of these types whose lengths and counters fit their fields; all batches of all commits; all proofs of all histories", "why_tests_cant": "unbounded number of siblings, children, entries and all values of every field", "anchors": ["src/types/proof/definition.rs", "src/types/proof.rs", "src/node_type.rs", "src/types/nibble/nibble_path.rs", "src/writer.rs", "src/lib.rs"]}
{"id": "C102", "title": "Which value reads the queries need", "statement": "To answer get, proofs, root hash, leaf count, range and exclusion proofs about a readable version v, a store that serves the nodes need answer value requests rightly only at v itself. To iterate over v as well it is enough that the value of a key is answered rightly at every version from the key's last write up to v; so a store that keeps one current value per key serves the latest version completely. FALSE: that it suffices for iteration to answer value requests rightly at every version that is still readable: a store that squashes the values up to its pruning version into that version answers every other query, and its iterator fails (\"Missing value\"), because iteration asks for a value at the version in which the leaf's node was made.", "quantifier": "all histories, all readable versions, all stores serving the nodes of the history and whatever value answers meet the condition", "why_tests_cant": "ranges over all histories and all ways a store may answer the other value requests", "anchors": ["src/reader.rs: TreeReader::get_value_option, get_value", "src/iterator.rs: JellyfishMerkleIterator::next", "src/tree.rs: get, get_with_proof, get_with_exclusion_proof, get_range_proof"]}
{"id": "C103", "title": "A write of a restore torn by a crash", "statement": "The interface of the store does not say that write_node_batch is atomic. Let a restore be killed in the write of a chunk, and reopened. If the torn write stored no node, whichever of the values it stored, nothing is lost: resuming as usual ends with a tree that reads as the original. If it stored the nodes but not all of the values, the loss is not noticed: every later chunk is accepted and finish succeeds with the expected root hash and number of leaves; the keys of which some write stored the value read exactly as the original, with their proofs; for the others get answers None and get_with_proof fails. So a backend whose writes are not atomic must store the values of a batch before its nodes. FALSE: that a restore that finishes has every value of the snapshot, whatever part of a write a crash leaves behind.", "quantifier": "all source histories and readable versions, all chunk sizes, all sequences of deliveries, crashes and torn writes, all sets of values the torn writes store", "why_tests_cant": "ranges over all crash points inside a write, all subsets of the values and all later schedules", "anchors": ["src/restore.rs: add_chunk_impl, new, recover_partial_nodes, finish_impl", "src/writer.rs: TreeWriter::write_node_batch", "src/tree.rs: get, get_with_proof"]}
{"id": "C104", "title": "A restore fed by peers that need not be honest", "statement": "A client knows the root hash of a snapshot and asks anybody for chunks with proofs. It keeps what is accepted; when a chunk is refused or a call panics, it opens the restore again on its store. Whatever it is sent, in whatever order: what it holds is the snapshot up to some key; when nothing is missing, finish gives a store that reads as the snapshot, proofs included; when something is missing, the next entries from any honest server, whose version with the same contents may have another number and another history, are accepted, and one such answer with all that is missing completes the restore. Otherwise a hash collision is exhibited among the inputs hashed for the root and the accepted chunks. FALSE: that a client may go on with the same object after a refusal (finish then gives another root hash), and that honest chunks of one entry suffice for progress (opening the restore again gives up the last entry accepted, so a liar heard after each of them keeps the client at the start for ever).", "quantifier": "all source histories, all readable versions, all sequences of messages (chunks and proofs of any content), all histories of the honest servers, all chunk sizes, all hash functions", "why_tests_cant": "ranges over everything an adversary can send, in every order, at every point of a restore", "anchors": ["src/restore.rs: add_chunk_impl, verify, new, recover_partial_nodes, finish_impl", "src/tree.rs: get_range_proof"]}

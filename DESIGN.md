# Formal model of penumbra-zone/jmt in Rocq (Coq 8.16.1)

Everything is in `rocq/theories` (logical name `Verif`); nothing of /repo is built or run.  `properties.jsonl` has the English
claims, `MANIFEST.json` maps them to theorem names, `seeded/LOG.jsonl` records the wrong programs tried against the theorems.

## Layers

| Layer | Files | What it is |
|---|---|---|
| Vocabulary | `Base` | outcomes (`Ok`, `Err`, `Panic`), bytes, 32-byte strings, nibbles, bits, key order, hash preimages, node keys |
| Model | `NodeType` `ProofDef` `TreeCache` `Tree` `BatchTree` `Exclusion` `Iterator` `Requests` `Restore` `Mock` `MockSteps` `MockExtra` `Ics23`, byte level: `NibblePath` `NibbleRange` `ChildrenArr` `Codec` `Borsh` | executable Gallina, one definition per function, each with the file and lines it models and its simplifications |
| Client | `Driver` (commits, commits with proofs, purges on one store), `RestoreDriver` (chunks, rejected chunks, crashes and reopenings of a restore) | arbitrary op sequences over the model; the theorems quantify over these |
| External verifier | `Ics23Verify` | the ICS23 verification rules of the external `ics23` crate (not in /repo) |
| Specification | `Spec` (contents of a history, sparse Merkle root, hash inputs, broken hash), `SpecOrder` (sorted entries, neighbours), `SpecRange` (hashes beside a path) | no model function is used, only `Base` vocabulary, which `ThmFormat` pins to explicit bytes and bits |
| Proofs | `*Facts*`, `Canon*`, `Insert*`, `PutTop`, `Restore*`, `Batch*`, `Ics*` | lemmas and invariants |
| Theorems | `Thm*.v`, `Demo`, `Toy`, `ToyRestore` | the property theorems `Cnn_*` and beside them concrete instances (`demo`, `toy` …) that meet the hypotheses |

## Trusted base

* Coq's kernel (vm_compute included, used for closed witnesses).
* `Print Assumptions` says "Closed under the global context" for the `Cnn_*` theorems; the only axioms `coqchk` sees in the loaded
  libraries are the opaque module constants of `Coq.ssr.ssrunder` (loaded by std++/ssreflect, used by no theorem here).
  Standard library and std++ are the only libraries used.
* The reading of the Rust code (nothing is extracted or executed), of std collections, and of external crates: `borsh` (wire
  format, `Codec`), `ics23` (`Ics23Verify`) and `serde`/`serde_json` (derived forms and text, `Json`), and of
  the standard FIPS 180-4 behind `sha2` (`Sha256`; used by C98 only).
* The hash function is a universally quantified `H : list byte -> bytes32`.  Nothing is assumed of it: soundness theorems conclude
  "… or `hash_broken H inputs`", an explicit collision or placeholder preimage among listed inputs.  The streaming hasher
  (`new`/`update`/`finalize`) is `H` of the concatenation (C94 says for which hashers that is so).  The ICS23 theorems use the same `H` for SHA-256, as the spec names it.

## Modelled, file by file

| /repo | Model | Left out |
|---|---|---|
| src/lib.rs | `bytes32` newtypes, `key_hash`, `value_hash`, errors, constants; `Hasher` (SimpleHasher, TransparentHasher), `LogFormat` (Debug formats) | Display of errors, feature plumbing |
| src/bytes32ext.rs | `Base`, `NibblePath` (get_nibble, nibble, bits and their iterator from both ends, from_bit_iter, common prefixes) | — |
| src/types/nibble.rs | `Base`, `NibbleRange` | Display, Arbitrary |
| src/types/nibble/nibble_path.rs | `NibblePath`, `LogFormat` (Debug) | Arbitrary, MIRAI-only annotations |
| src/node_type.rs | `NodeType`, `ChildrenArr` | Display; `NodeDecodeError`; the metrics |
| src/types/proof.rs, proof/definition.rs | `NodeType`, `ProofDef` | Debug; `left_siblings`/`bitvec` test helpers |
| src/tree_cache.rs, reader.rs, writer.rs | `TreeCache`, `NodeBatch`; `Requests` (the same reads and commits as programs of single requests, each of which may fail) | `get_value_option` and `get_rightmost_leaf` of the private `TreeCache` (never called); errors of a TreeWriter (the half-written states they leave are covered by C60), tracing |
| src/tree.rs | `Tree`, `BatchTree`, `Exclusion` | `new_migration` is `append_value_set`'s constructor only; tracing |
| src/tree/ics23_impl.rs | `Ics23` | — |
| src/iterator.rs | `Iterator`, `IterStep` (with the state after a failed `next`) | state after a panic |
| src/restore.rs | `Restore` | `Arc`, `finish_box` (same as `finish`) |
| src/mock.rs | `Mock`, `MockSteps` (the same writes, one insertion at a time), `MockExtra` (put_leaf, num_nodes, preimages) | `RwLock`; HashMap order (rightmost leaf among equal keys) is fixed |
| Borsh derives | `Codec`, `Borsh` | — |
| serde derives, with serde_json's text | `Json` | serde formats other than JSON; unpaired escaped surrogates in skipped strings (rejected); serde_json's nesting limit (128) and its UTF-8 check |

Global simplifications: `u64` versions are unbounded `N` (`Version64` has the u64 arithmetic, and C80 relates the two), `usize` counts unbounded; subtraction underflow is modelled (panic, or wrap
where the build profile matters: the `ovf` flag).  HashMap/BTreeMap are std++ `gmap`/`gset`, with explicit sorting where order
matters.  Paths are nibble lists, children are finite maps; `ThmNibble`, `ThmChildren` and `C56_paths` relate them to the packed
bytes, the array with its counter and the length bound.  Error texts are abbreviated.  Wall-clock, memory and threads are not modelled.

## Per property: what is modelled and how it is proved

| Id | Theorems in | Method |
|----|----|----|
| C01, C02, C05, C11, C25, C39 | `ThmStore`, `ThmStore2` | invariant `SInv` of the store over all op sequences (`run_inv`): every readable version has a canonical tree (`Canon`) of the contents; per-key histories are the writes of the specification |
| C03, C04 | `ThmStore` | hash of the canonical tree = `smt_root` by induction on the 64 nibble levels × 4 binary levels; root is a function of the contents |
| C06, C07, C49 | `ThmStore` | the proof returned is the specification path (`hproof`), and that verifies |
| C08, C09, C10, C50 | `ThmProof` | induction down the binary tree, extracting a collision |
| C12, C13, C20, C21, C24 | `ThmStore2` | the cache after a put is determined by old tree and new tree: nodes added = nodes of the new tree at this version, stale = nodes of the old tree that are gone |
| C14, C15, C16, C18 | `ThmStore2`, `ThmProof` | binary-level update lemmas (fill, overwrite, split, remove with lifting); C16, C18 are refutations |
| C17 | `ThmProof` | case analysis for all proofs |
| C19, C53 | `ThmBatch` | batch insertion reaches the same canonical tree; C53 refuted by computation |
| C22, C23 | `ThmStore2` | purge removes only nodes outside readable trees; completeness refuted for roots of no-op versions, proved for all other nodes |
| C26, C27, C48 | `ThmIter`, `KeyOrder` | stack invariant: remaining output = sorted entries to the right of the stack |
| C28–C30 | `ThmExcl` | search along the path + neighbour lemma on sorted contents |
| C31, C32 | `ThmRange` | right siblings of the specification path; adversarial soundness by descent |
| C33–C36 | `ThmRestore`, `ToyRestore`, `ThmMockSteps` (C35_rejected_writes_nothing) | partial nodes = right spine of the tree of the received prefix; crash = rebuild of that spine from the store; C36 refuted |
| C37, C38, C54 | `ThmNibble`, `ThmNibbleRange`, `ThmChildren` | byte-level model refined to lists and maps |
| C40, C41, C46, C47 | `ThmRefute` | refutations by computed witnesses |
| C42–C44, C57, C58 | `ThmIcs` | ICS23 ops recompute the fold; completeness through C28/C29; soundness for adversarial ICS23 proofs by descent; C44, C58 refuted |
| C59 | `ThmFormat` | the shared vocabulary computed against explicit bytes; a key as a big-endian number, bit by bit |
| C60, C61 | `ThmCrash`, `ThmRedo` | a readable version only needs its own nodes and values; both survive extra writes; C61: insertion is monotone in the reader as long as the root is found, and putting a value of the same version again replaces it; the false part refuted by computation |
| C62 | `ThmAppend` | refuted by five computed runs of append_value_set (feature "migration") on reachable stores |
| C63 | `ThmConc` | a readable version's view (its nodes and values) is the same in every state the store passes through, so a reader mixing those states has the same view; the read theorems only need the view |
| C64 | `ThmPurged` | a reader with more nodes answers the same wherever the smaller one answers; every state shows of a version only nodes of that version, so the reader can be completed to an undisturbed one; the panic by a computed run |
| C65 | `IterStep`, `ThmFlaky` | the iterator's state after a failed call modelled; the invariant of C26 also holds in the middle of a descent; the one-entry failure by a computed run |
| C66 | `ThmContinue` (`StoreFacts`, `DriverFacts` with a base version) | the store invariant of C01-C24 generalised to stores that begin at a base version; a completed restore leaves such a store |
| C67 | `FirstFacts`, `ThmFirst` | a missing root and an empty root at the preceding version are interchangeable for a commit that inserts; the invariant with base version v then holds after the first commit |
| C68 | `AppendFacts`, `ThmAppendOk` | the insertion lemma with the tree's own version as the write version; the rewritten version keeps the invariant that commits need, except for the stale entries at that version |
| C69 | `ThmOver` | a restore never reads its store, so a restore into a store with older versions simulates one into an empty store; the result is one store laid over the other; transfer of reads by monotonicity; `new` fails because a version that writes a leaf writes all its ancestors |
| C70 | CommitMono.v (the commit as a monotone function of the reader), ThmDamaged.v | a reader with fewer nodes: every step of the commit that succeeds does the same with more nodes; the root keys looked at are the same |
| C71 | ThmDamaged.v (purging) | nodes that survive a purge of everything stale are in every state passed through; the commit succeeds on them alone, then C70's monotonicity in both directions |
| C72 | Requests.v (prog, may), ThmRequests.v | queries and commits once more as programs that ask for one node or value at a time; proved equal to the functional models when nothing fails (RequestFacts.v); every program stops at a failed answer (RequestSafe.v, `safe`), so a run that succeeds had only right answers. The same programs give C63, C64 and C71 with each request answered on its own (`C63_interleaved_reads`, `C64_interleaved_reads`, `C71_interleaved_purge`) |
| C73 | ThmUnknown.v | no node of a version from n on is in the store (store invariant); each query starts at the root |
| C74 | ThmVersions.v (links_back) | induction on the trace of versions: a live node is of the version or was live, under the same key, before; batches by commit_batchB |
| C75 | ThmVersions.v | the stale set is exactly the retired nodes above the oldest readable version (induction on the history); nodes, histories and the rest are functions of the trace, which ignores purges |
| C76 | NodeBatch.v (model of writer.rs), ThmDefer.v (overlay_of, druns, settle) | simulation: the pending batch is the merge of the batches of the pending commits, an overlay answers like the store after the flush, and a program's outcome depends on the answers only (runp_same); writing a merged batch = writing in turn because the sorted values are concatenated |
| C77 | ThmWriteFail.v (add_chunk_up, wdeliver) | the invariant of C33/C34 with pending entries: the store holds the tree of an initial segment, the object that of a longer one, and the pending batch is the difference; one-entry trees: finish panics on the pending value |
| C78 | ThmFollow.v (accepts, accepted, all_true) | induction on the messages over C08, C09, C15; completeness by induction on the history over C14 and the shape of the proofs (pfs_ok) |
| C79 | request programs of Requests.v (C72), all answers possible | ThmCost.v: `asks` bounds the requests of every run and carries a predicate of the result; sizes by counting put_node and delete_node |
| C80 | Version64.v (add64, the three commits and the client with u64 additions), ThmU64.v | no write changes the cache's version, so each addition is first + idx + 1; equality with the unbounded model while that fits; the wrap-around by a computed run |
| C81 | ThmSame.v (same_effect, same_op) | each query is a function of the contents: proofs by the unique end of the path (term_unique), neighbours are unique; commuting writes; the stored nodes by a computed pair of runs |
| C82 | ThmOrigin.v (in_use, same_answers, passes_from) | the store invariant with a base version (C66, C67) holds for every origin; a restore uses its source only through range proofs, which depend on the contents only, so it equals a restore from a store written at once; crash and concurrency lemmas of C60/C63 redone over that invariant |
| C83 | ThmSpace.v (num_roots, total), MockExtra.v | num_nodes against the sums of NodeStats, by induction over the operations from any store in use; space bound from the trace invariant: every stored node but roots is live in the latest version or stale |
| C84 | ThmLeaf.v (newest, record_all), MockExtra.v (put_leaf, put_key_preimage, get_preimage) | case analysis on the history of the key; put_leaf into the empty store is computed to be the store of the first commit |
| C85 | Beside.v (two stores of disjoint version ranges as one), ThmGap.v (island, cut, grow, found, world) | each history has a store of its own satisfying the invariant SInvB; writing, purging and reading the joint store are simulated by the parts (commits read only below their own root: CommitMono); restore by the overlay lemmas of C69 |
| C86 | MockSteps.v (the loops of mock.rs one step at a time), MockStepFacts.v, ThmMockSteps.v (staged, restoring, no_later) | induction over the sorted lists; the first node of a batch in key order is its root (all nodes of a batch are of the new version or later, BatchAbove.v); the other versions survive because their nodes are not touched (view_mono) |
| C87 | ThmKeys.v (bcontents, bop: histories over byte strings; hash_op: what the client passes on) | either two of the finitely many keys collide, or the hash is injective on them and the contents of the tree track the map of byte strings write by write; then C01, C02, C08, C09, C10, C26 |
| C88 | ThmLive.v (pull, next_chunk, receive: a receiver in client code; live, from_source: what it sees) | the entries fetched are the next ones whatever state of the source each item was read in (one assignment of node versions fits all states, passes_from_view); then a simulation by the client of C33/C34 (deliver), and C82 |
| C89 | ThmBackend.v (holding, latest: what a store holds; conforms, accepts: the contract; bstep: the client) | a covering invariant between such a store and the mock store (holds at least its nodes, exactly its values); commits by CommitMono, reads by view_same of C60/C82 |
| C90 | ThmValues.v (conforms_dropping: the contract of C89 with value deletion; thrifty_prune: an instance) | the covering invariant of C89 with values constrained from the oldest readable version on only; a leaf node is never older than the last write to its key (LeafVersion), so the reads of the iterator below that version see the same record |
| C91 | ThmBRestore.v (conforms_restore: the contract; brestore_new, badd_chunk, bfinish, bdeliver: the restore through the traits), ThmBOrigin.v (b_in_use, source) | simulation by the mock store: during a restore the same nodes and values (the rightmost leaf is unique), afterwards the covering relation of C89 with the origins of C82; then C82 applies |
| C92 | ThmBCalls.v (bclient_run: any calls, any refused writes), ThmBRestore.v (badd_chunk) | simulation by the mock client of C35: same object, same nodes and values; rverify_sound per accepted chunk |
| C93 | ThmBOrigin.v (partly_stored, partly_dropped, b_in_use with crashes), ThmBConc.v (b_passes: the states at all crash points; b_reads_along) | the covering relation of C91 with the mock store; what a batch writes is at new versions, so views of kept versions persist (C60, C82); C61 for redoing |
| C94 | Hasher.v (SimpleHasher as a state machine, node hashes by pieces, TransparentHasher), ThmHasher.v | induction over the pieces; computed forgery for TransparentHasher |
| C95 | LogFormat.v (EscapedByteSlice, Debug of hashes and paths), ThmLog.v | escape sequences are a prefix code |
| C96 | ThmBReq.v (b_node, b_value, b_pruning) | a minimal reader holding what every state has; the request programs never look elsewhere (RequestSafe.v) |
| C97 | Json.v (json_text, read_text, j_node, j_proof …), ThmJson.v, ThmJsonStore.v | the parser reads back every printed value (mutual induction on the fuel); `good`/`sound` lemmas per combinator give round trip, injectivity and bounds for each type; composed with C45's bounds for stored nodes, C06/C07 for served proofs, C08/C09/C17 for arbitrary texts; the false parts by concrete texts |
| C98 | Sha256.v, Vectors.v, ThmSha256.v | absorbing blocks commutes with appending (induction on the fuel), hence any pieces give the digest of the whole; padded length computed modulo 64; the vectors of the repository and published digests by evaluation |
| C99 | ThmBPurged.v | invariant over the lives of a conforming store: it is `kept` beside the mock store (C91), and every node in it is a node of the tree of some committed version; hence it shows a partial view of each version, which is completed as for C64; request by request: one full reader of the version stands for all answers |
| C100 | IcsRequests.v (iprog: programs that also ask for preimages; get_with_ics23_proof_p), ThmIcsReq.v | the request program with fixed answers is the function (ics_p_ok); over settled answers (C96, C99) its outcome is the function's on one full reader of the version with some map of preimages, or a failure; then C43 for any reader (ThmIcs.v, section view) |
| C101 | SpecLayout.v (the bytes and texts, field by field, without the codecs), ThmLayout.v | one layout lemma per codec of Borsh.v (little-endian digits by induction, packed paths two nibbles at a time, entries of maps as sorted lists with their preimages), then `laid_out`: written so, read back whatever follows, and read from no other bytes; texts of Json.v likewise; order refuted by versions 1 and 256 |
| C102 | ThmPoint.v (point_reads_as, serves_nodes, unwritten, squashed) | the proofs of view_reader need the value clause at v only (stored_point); for iteration, leaf_unwritten (C90): between the version of a leaf's node and v the key is not written; the squashed store by computing its iterator |
| C103 | ThmTorn.v (torn_write, tdeliver, torn_client) | the restore commutes with replacing the values of its store (on_values), so each step of the torn client follows one or two of the client of C33/C34 (follows); reads: the proof loop under another value reader (gwp_values). A torn write stores all or none of the nodes of the batch and any of its values; part of the nodes only: computed on one tree (C103_partial_nodes), no general theorem; the loss itself by computation (C103_lost) |
| C104 | ThmPeers.v (careful_call, careful_run, missing) | every accepted chunk leaves the state of an honest restore (one_call_ok of C35, synced objects are hobj), and so does opening again (reopen_hobj); progress by add_honest; the livelock by a computed round that returns to the same state, and induction on the rounds |
| C45, C55 | `ThmBorsh`, `ThmBorshStore` | combinator codecs with a correctness record (`good`); C55 refuted |
| C51 | `ThmStore2` | case analysis, invariant |
| C52 | `ThmNode` | bitmaps through `N.testbit`, for all 2^16 × 2^16 child sets by structure, not enumeration |
| C56 | `ThmBorshStore` | canonical trees have depth at most 64 |

Properties marked FALSE in `properties.jsonl` are desirable statements that the code does not have; their theorems are the
refutations (with a computed or general counterexample) and, where there is one, the largest true part.

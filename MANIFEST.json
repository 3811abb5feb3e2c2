{
 "claims": [
  {
   "property": "C01",
   "status": "proved",
   "theorems": [
    "C01_get",
    "C01_contents_are_the_last_write"
   ],
   "note": "every op sequence of commits, proof-carrying commits and purges"
  },
  {
   "property": "C02",
   "status": "proved",
   "theorems": [
    "C02_get_with_proof"
   ],
   "note": ""
  },
  {
   "property": "C03",
   "status": "proved",
   "theorems": [
    "C03_root_hash",
    "C03_returned_roots"
   ],
   "note": ""
  },
  {
   "property": "C04",
   "status": "proved",
   "theorems": [
    "C04_history_independent",
    "C04_insert_then_delete"
   ],
   "note": ""
  },
  {
   "property": "C05",
   "status": "proved",
   "theorems": [
    "C05_returned_root_is_stored"
   ],
   "note": ""
  },
  {
   "property": "C06",
   "status": "proved",
   "theorems": [
    "C06_existence_complete"
   ],
   "note": ""
  },
  {
   "property": "C07",
   "status": "proved",
   "theorems": [
    "C07_nonexistence_complete"
   ],
   "note": ""
  },
  {
   "property": "C08",
   "status": "proved",
   "theorems": [
    "C08_existence_soundness"
   ],
   "note": "for every hash function, adversarial proof"
  },
  {
   "property": "C09",
   "status": "proved",
   "theorems": [
    "C09_nonexistence_soundness"
   ],
   "note": ""
  },
  {
   "property": "C10",
   "status": "proved",
   "theorems": [
    "C10_root_binding"
   ],
   "note": ""
  },
  {
   "property": "C11",
   "status": "proved",
   "theorems": [
    "C11_immutable"
   ],
   "note": ""
  },
  {
   "property": "C12",
   "status": "proved",
   "theorems": [
    "C12_batching_irrelevant",
    "C12_batch_equals_one_by_one"
   ],
   "note": ""
  },
  {
   "property": "C13",
   "status": "proved",
   "theorems": [
    "C13_with_proof_same_effect"
   ],
   "note": ""
  },
  {
   "property": "C14",
   "status": "proved",
   "theorems": [
    "C14_update_proofs_verify",
    "C14_update_proof_verifies"
   ],
   "note": ""
  },
  {
   "property": "C15",
   "status": "proved",
   "theorems": [
    "C15_update_soundness"
   ],
   "note": "overflow checks on; deletions carry a leaf; any number of updates"
  },
  {
   "property": "C16",
   "status": "proved",
   "theorems": [
    "C16_update_deletion_unsound"
   ],
   "note": "the property is false of the code; the theorem is the refutation for every map and present key"
  },
  {
   "property": "C17",
   "status": "proved",
   "theorems": [
    "C17_verify_never_panics",
    "C17_verify_existence_never_panics",
    "C17_verify_nonexistence_never_panics"
   ],
   "note": ""
  },
  {
   "property": "C18",
   "status": "proved",
   "theorems": [
    "C18_verify_update_panics",
    "C18_verify_update_accepts_forged_root",
    "C18_forged_root_is_wrong"
   ],
   "note": "the property is false of the code; the theorems are the refutation"
  },
  {
   "property": "C19",
   "status": "proved",
   "theorems": [
    "C19_batch_equals_put",
    "C19_with_node_hashes",
    "C19_empty_set_panics"
   ],
   "note": "every reachable store, repeated keys, several versions; roots, nodes, values, stale indices and statistics all equal; with given node hashes too, when they agree with the nodes written"
  },
  {
   "property": "C20",
   "status": "proved",
   "theorems": [
    "C20_run_never_fails",
    "C20_fresh_nodes"
   ],
   "note": ""
  },
  {
   "property": "C21",
   "status": "proved",
   "theorems": [
    "C21_stale_index_refers_to_existing_node",
    "C21_stale_at_most_once",
    "C21_stale_not_in_later_versions"
   ],
   "note": ""
  },
  {
   "property": "C22",
   "status": "proved",
   "theorems": [
    "C22_purge_safe",
    "C22_as_if_never_purged"
   ],
   "note": ""
  },
  {
   "property": "C23",
   "status": "proved",
   "theorems": [
    "C23_purge_incomplete",
    "C23_purge_complete_partial"
   ],
   "note": "the property is false of the code for roots of no-op versions: refuted; non-root nodes are all collected"
  },
  {
   "property": "C24",
   "status": "proved",
   "theorems": [
    "C24_stats_accurate"
   ],
   "note": ""
  },
  {
   "property": "C25",
   "status": "proved",
   "theorems": [
    "C25_leaf_count"
   ],
   "note": ""
  },
  {
   "property": "C26",
   "status": "proved",
   "theorems": [
    "C26_iterate_from",
    "C26_entries_spec",
    "C26_entries_from_spec"
   ],
   "note": "every history, readable version and start key"
  },
  {
   "property": "C27",
   "status": "proved",
   "theorems": [
    "C27_iterate_by_index",
    "C27_index_is_rank"
   ],
   "note": "every history, readable version and index"
  },
  {
   "property": "C28",
   "status": "proved",
   "theorems": [
    "C28_exclusion_names_neighbours"
   ],
   "note": "every history, readable non-empty version and absent key"
  },
  {
   "property": "C29",
   "status": "proved",
   "theorems": [
    "C28_exclusion_names_neighbours",
    "C29_present_key"
   ],
   "note": "the neighbour proofs verify (in names_neighbours); present keys"
  },
  {
   "property": "C30",
   "status": "proved",
   "theorems": [
    "C30_no_exclusion_proof_when_empty"
   ],
   "note": ""
  },
  {
   "property": "C31",
   "status": "proved",
   "theorems": [
    "C31_range_proof_verifies",
    "C31_range_proof_absent",
    "C31_left_from_smaller",
    "C31_right_from_greater"
   ],
   "note": "every history, readable version and present key, both build profiles"
  },
  {
   "property": "C32",
   "status": "proved",
   "theorems": [
    "C32_range_sound",
    "C32_too_many_panics",
    "C32_too_many_accepted",
    "C32_too_many_leaf_sound"
   ],
   "note": "adversarial proofs and siblings; with more than 256 siblings verify panics (overflow checks) or ignores them all (release), both shown"
  },
  {
   "property": "C33",
   "status": "proved",
   "theorems": [
    "C33_C34_restore",
    "C34_restore_completes",
    "demo_restored"
   ],
   "note": "every history, readable non-empty version, chunk sizes; the alternative is a collision or placeholder preimage among the inputs of the source tree"
  },
  {
   "property": "C34",
   "status": "proved",
   "theorems": [
    "C33_C34_restore",
    "C34_restore_completes",
    "C34_same_store"
   ],
   "note": "crashes between calls, any number; the entries above the rightmost stored leaf are delivered again"
  },
  {
   "property": "C35",
   "status": "proved",
   "theorems": [
    "C35_accepted_sound",
    "C35_store_sound",
    "C35_rejected_writes_nothing"
   ],
   "note": "any calls, accepted or rejected, and any crashes; adversarial chunks and proofs. That a refused chunk writes nothing is proved for every restore object over a store with no value of a later version than the one restored (restoring); without that it is false: C86_refused_chunk_writes"
  },
  {
   "property": "C36",
   "status": "proved",
   "theorems": [
    "C36_finish_unchecked"
   ],
   "note": "the property is false of the code; the theorem shows that finish writes the tree of the entries received without looking at the expected root; computed instances in ToyRestore.v"
  },
  {
   "property": "C37",
   "status": "proved",
   "theorems": [
    "C37_push_pop",
    "C37_unique",
    "C37_collect",
    "C37_new",
    "C37_new_odd",
    "C37_new_panics",
    "C37_new_odd_panics",
    "C37_key",
    "C37_read",
    "C37_nibbles",
    "C37_bits",
    "C37_next",
    "C37_iter_parts",
    "C37_drain",
    "C37_get_nibble_path",
    "C37_bit_next",
    "C37_bit_drain",
    "C37_skip_common_prefix",
    "C37_order",
    "C37_key_nibble",
    "C37_key_bit",
    "C37_key_iter",
    "C37_from_bits",
    "C37_from_bits_other",
    "C37_from_bits_key",
    "C37_pack"
   ],
   "note": "byte-level model of the path type, its iterators and conversions; C37_key_iter: the bits of a key from both ends in any order"
  },
  {
   "property": "C38",
   "status": "proved",
   "theorems": [
    "C38_partition",
    "C38_unique"
   ],
   "note": "every sorted non-empty list of keys and every nibble index"
  },
  {
   "property": "C39",
   "status": "proved",
   "theorems": [
    "C39_noop_version"
   ],
   "note": ""
  },
  {
   "property": "C40",
   "status": "proved",
   "theorems": [
    "C40_no_root_at_first_version"
   ],
   "note": "the property is false of the code; the theorem is the refutation"
  },
  {
   "property": "C41",
   "status": "proved",
   "theorems": [
    "C41_gap_loses_keys"
   ],
   "note": "the property is false of the code; the theorem is the refutation"
  },
  {
   "property": "C42",
   "status": "proved",
   "theorems": [
    "C42_conversion_faithful",
    "C42_too_many_siblings"
   ],
   "note": "any proof whose leaf is the (key hash, value hash) leaf, up to 256 siblings; hash = SHA-256 as named by the ICS23 ops"
  },
  {
   "property": "C43",
   "status": "proved",
   "theorems": [
    "C43_nonexistence_complete",
    "C43_existence_complete"
   ],
   "note": "every history and readable version; the whole ICS23 verifier (a model of the external crate) accepts, not only the computed roots; the depth bound is C44"
  },
  {
   "property": "C44",
   "status": "proved",
   "theorems": [
    "C44_depth_bound",
    "C44_depth_bound_refuted"
   ],
   "note": "the property is false of the code; exact condition for the bound to hold, and a counterexample"
  },
  {
   "property": "C45",
   "status": "proved",
   "theorems": [
    "C45_hash",
    "C45_leaf",
    "C45_proof",
    "C45_update_proof",
    "C45_range_proof",
    "C45_nibble_path",
    "C45_node_key",
    "C45_node",
    "C45_batch",
    "C45_put_batch",
    "C45_read_proof",
    "C45_canonical_proof",
    "C45_canonical_range_proof",
    "C45_canonical_update_proof",
    "C45_canonical_node",
    "C45_canonical_batch"
   ],
   "note": "round trip, exact consumption, uniqueness of the encoding; sizes bounded by the u32/u64 fields of the format"
  },
  {
   "property": "C46",
   "status": "proved",
   "theorems": [
    "C46_append_then_purge_loses_root"
   ],
   "note": "the property is false of the code; the theorem is the refutation"
  },
  {
   "property": "C47",
   "status": "proved",
   "theorems": [
    "C47_pre_genesis_lost"
   ],
   "note": "the property is false of the code; the theorem is the refutation"
  },
  {
   "property": "C48",
   "status": "proved",
   "theorems": [
    "C48_order_by_first_bit",
    "C48_order_by_first_nibble",
    "C48_strict_total_order"
   ],
   "note": ""
  },
  {
   "property": "C49",
   "status": "proved",
   "theorems": [
    "C49_proof_size"
   ],
   "note": ""
  },
  {
   "property": "C50",
   "status": "proved",
   "theorems": [
    "C50_proofs_unique"
   ],
   "note": ""
  },
  {
   "property": "C51",
   "status": "proved",
   "theorems": [
    "C51_old_versions_refused",
    "C51_history_increasing"
   ],
   "note": ""
  },
  {
   "property": "C52",
   "status": "proved",
   "theorems": [
    "C52_internal_hash",
    "C52_siblings_recombine"
   ],
   "note": "every set of children"
  },
  {
   "property": "C53",
   "status": "proved",
   "theorems": [
    "C53_given_hashes_unchecked",
    "C53_missing_hash_panics"
   ],
   "note": "the property is false of the code; computed counterexample"
  },
  {
   "property": "C54",
   "status": "proved",
   "theorems": [
    "C54_sequences",
    "C54_new",
    "C54_insert",
    "C54_remove",
    "C54_get",
    "C54_num",
    "C54_is_empty",
    "C54_values",
    "C54_iter",
    "C54_iter_spec"
   ],
   "note": "array and counter as in the code, against finite maps from nibbles"
  },
  {
   "property": "C55",
   "status": "proved",
   "theorems": [
    "C55_bad_path_accepted",
    "C55_bad_children_accepted",
    "C55_childless_internal_accepted"
   ],
   "note": "the property is false of the code; computed counterexamples"
  },
  {
   "property": "C56",
   "status": "proved",
   "theorems": [
    "C56_paths"
   ],
   "note": "for every history and every commit"
  },
  {
   "property": "C57",
   "status": "proved",
   "theorems": [
    "C57_membership_sound",
    "C57_non_membership_sound",
    "C57_exclusive"
   ],
   "note": "all adversarial ICS23 proofs, against a model of the external verifier"
  },
  {
   "property": "C58",
   "status": "proved",
   "theorems": [
    "C58_empty_rejected",
    "C58_empty_value_refuted"
   ],
   "note": "the property is false of the code"
  },
  {
   "property": "C59",
   "status": "proved",
   "theorems": [
    "C59_bits",
    "C59_num_bits",
    "C59_order",
    "C59_order_eq",
    "C59_leaf_bytes",
    "C59_internal_bytes",
    "C59_placeholder_bytes",
    "C59_preimages_injective",
    "C59_empty",
    "C59_single"
   ],
   "note": "pins the vocabulary that model and specification share to explicit bytes and numbers"
  },
  {
   "property": "C60",
   "status": "proved",
   "theorems": [
    "C60_crash_in_commit",
    "C60_crash_in_purge",
    "C60_complete_write_covered",
    "C60_complete_purge_covered"
   ],
   "note": "any subset, in any order, of the single writes"
  },
  {
   "property": "C61",
   "status": "proved",
   "theorems": [
    "C61_redo_batch",
    "C61_redo_same",
    "C61_redo_same_refuted",
    "C61_redo_other_refuted",
    "C61_redo_stale_refuted",
    "C61_redo_two_versions_refuted"
   ],
   "note": "the true part for all histories and crash points; four computed counterexamples for the rest"
  },
  {
   "property": "C62",
   "status": "proved",
   "theorems": [
    "C62_append_purge_refuted",
    "C62_append_latest_refuted",
    "C62_append_panics_refuted",
    "C62_append_twice_refuted",
    "C62_append_wrong_root_refuted"
   ],
   "note": "the property is false of the code: five computed counterexamples"
  },
  {
   "property": "C63",
   "status": "proved",
   "theorems": [
    "C63_concurrent_reads",
    "C63_concurrent_proof",
    "C63_concurrent_iteration",
    "C63_concurrent_iteration_by_index",
    "C63_interleaved_reads"
   ],
   "note": "writers serialised; each node or value request answered from any state passed through; C63_interleaved_reads: also when the same node is asked for twice and found in two different states"
  },
  {
   "property": "C64",
   "status": "proved",
   "theorems": [
    "C64_answers_truly",
    "C64_purged_answers_truly",
    "C64_iterates_truly",
    "C64_iterates_truly_by_index",
    "C64_interleaved_reads",
    "C64_purged_panics_refuted"
   ],
   "note": "the truth of every answer for all histories; C64_interleaved_reads answers every single request on its own, possibly with an error; the claim that failures are errors is false, computed counterexample"
  },
  {
   "property": "C65",
   "status": "proved",
   "theorems": [
    "C65_flaky_iteration",
    "C65_flaky_iteration_by_index",
    "C65_single_entry_refuted"
   ],
   "note": "versions with a number of entries other than one; the one-entry case is false of the code, computed counterexample"
  },
  {
   "property": "C66",
   "status": "proved",
   "theorems": [
    "C66_restored_store_continues",
    "C66_replica_same_roots",
    "C66_update_proofs"
   ],
   "note": "up to hash collisions among the hashed inputs of the restored tree"
  },
  {
   "property": "C67",
   "status": "proved",
   "theorems": [
    "C67_any_first_version"
   ],
   "note": "the first value set must insert something (otherwise C40)"
  },
  {
   "property": "C68",
   "status": "proved",
   "theorems": [
    "C68_append",
    "C68_accepted",
    "C68_refused",
    "C68_example"
   ],
   "note": "for every history of commits and purges and every reader of its store; the condition on deletions is the exact border to the failures of C62"
  },
  {
   "property": "C69",
   "status": "proved",
   "theorems": [
    "C69_restore_beside",
    "C69_get_refuted",
    "C69_new_refuted"
   ],
   "note": "restore beside older versions: the tree and the older versions are right; two refuted parts: get falls back to older values, and new never opens on such a store. Honest chunks without crashes (after a crash only new_overwrite, i.e. starting again, is possible)."
  },
  {
   "property": "C70",
   "status": "proved",
   "theorems": [
    "C70_damaged_store",
    "C70_lost_root_refuted"
   ],
   "note": "For any reader whose nodes are among those of the store and which still has the root of the latest version. C70_lost_root_refuted shows the hypothesis on the root is needed."
  },
  {
   "property": "C71",
   "status": "proved",
   "theorems": [
    "C71_concurrent_purge",
    "C71_interleaved_purge"
   ],
   "note": "Each node is answered from any state passed through while only purges run, including half-done ones; C71_interleaved_purge answers every single request on its own, and also with failing requests. batch_put_value_sets for non-empty value sets without given hashes (with given hashes: C70 gives that a success is the right one)."
  },
  {
   "property": "C72",
   "status": "proved",
   "theorems": [
    "C72_queries",
    "C72_root_hash_option",
    "C72_iter_next",
    "C72_commits"
   ],
   "note": "For every reader and every choice of failing requests. The functions are modelled once more as programs of requests (Requests.v), proved equal to the functional models when no request fails (RequestFacts.v)."
  },
  {
   "property": "C73",
   "status": "proved",
   "theorems": [
    "C73_uncommitted_version"
   ],
   "note": ""
  },
  {
   "property": "C74",
   "status": "proved",
   "theorems": [
    "C74_versions_in_store",
    "C74_versions_in_batch"
   ],
   "note": ""
  },
  {
   "property": "C75",
   "status": "proved",
   "theorems": [
    "C75_purge_schedule_irrelevant",
    "C75_purge_twice"
   ],
   "note": "The purge of the mock store (mock.rs); what the batches list as stale is C21."
  },
  {
   "property": "C76",
   "status": "proved",
   "theorems": [
    "C76_node_batch_map",
    "C76_merge_is_union",
    "C76_merge_commits",
    "C76_deferred_writes"
   ],
   "note": "The overlay reader is any reader with the two stated properties (a function with them is given: overlay_ok)."
  },
  {
   "property": "C77",
   "status": "proved",
   "theorems": [
    "C77_write_failures",
    "C77_completes",
    "C77_reopened",
    "C77_one_entry",
    "demo_write_failures"
   ],
   "note": "The store refuses a write whole (nothing is written): the model of add_chunk on such a store (ThmWriteFail.v, add_chunk_up) returns the error with the object as it is then. The one-entry case is a finding: finish asserts that nothing is pending (restore.rs:662) and panics; proved for every tree of one entry."
  },
  {
   "property": "C78",
   "status": "proved",
   "theorems": [
    "C78_follow_sound",
    "C78_follow_complete",
    "C78_follow_reads",
    "followed_accepted"
   ],
   "note": "Built on C08, C09, C14, C15. The condition that deletions are proved with a leaf is needed (C16); an honest server proves the deletion of an absent key without one, hence the proviso of the completeness half."
  },
  {
   "property": "C79",
   "status": "proved",
   "theorems": [
    "C79_queries",
    "C79_proof_size",
    "C79_commits",
    "C79_batch_size",
    "deep_costs"
   ],
   "note": "Requests counted in the request model of C72 (every answer possible); deep_costs: the bounds on new nodes and siblings are reached."
  },
  {
   "property": "C80",
   "status": "proved",
   "theorems": [
    "C80_no_overflow",
    "C80_histories",
    "C80_last_version_debug",
    "C80_last_version_release",
    "C80_release_wraps"
   ],
   "note": "Version64.v repeats the commits with u64 additions (panic or wrap); C80_histories carries the other theorems over to u64 versions. The wrap-around is the refuted part."
  },
  {
   "property": "C81",
   "status": "proved",
   "theorems": [
    "C81_contents_decide",
    "C81_write_order",
    "C81_last_write_wins",
    "C81_equivalent_histories",
    "C81_stored_nodes_refuted",
    "demo_same",
    "demo_reordered"
   ],
   "note": "The stored nodes are the refuted part."
  },
  {
   "property": "C82",
   "status": "proved",
   "theorems": [
    "C82_reads",
    "C82_same_answers",
    "C82_goes_on",
    "C82_commit",
    "C82_same_commits",
    "C82_restore",
    "C82_crash",
    "C82_concurrent",
    "C82_batch",
    "demo_replica"
   ],
   "note": "in_use: an inductive definition of the stores (empty / first version / restored from a store in use / further operations); the restore constructor assumes no collision on the hash inputs of the restored contents. demo_replica: a replica of a replica of the demo store meets the hypotheses."
  },
  {
   "property": "C83",
   "status": "proved",
   "theorems": [
    "C83_node_count",
    "C83_node_count_empty",
    "C83_roots",
    "C83_space",
    "C83_space_empty",
    "C83_demo"
   ],
   "note": "For stores of any origin (in_use). The bound of 64 nodes per key counts one node per nibble of each key; roots are bounded separately since unreachable root copies are never purged (C23). C83_demo: a concrete run."
  },
  {
   "property": "C84",
   "status": "proved",
   "theorems": [
    "C84_put_leaf_exists",
    "C84_put_leaf",
    "C84_put_leaf_half_done",
    "C84_first_leaf",
    "C84_preimages",
    "C84_record_all",
    "C84_demo"
   ],
   "note": "MockExtra.v. C84_put_leaf_half_done is a defect of the code: put_leaf fails and still leaves the node."
  },
  {
   "property": "C86",
   "status": "proved",
   "theorems": [
    "C86_node_batch_outcome",
    "C86_write_outcome",
    "C86_purge_outcome",
    "C86_write_partial",
    "C86_purge_partial",
    "C86_written_again",
    "C86_older_kept",
    "C86_recommit",
    "C86_recommit_damage",
    "C86_refused_chunk_writes",
    "demo_recommit"
   ],
   "note": "the loops of mock.rs step by step (MockSteps.v) against the whole-batch model (Mock.v) that the other theorems use; partly_written and partly_purged are the crash relations of C60"
  },
  {
   "property": "C85",
   "status": "proved",
   "theorems": [
    "C85_step",
    "C85_gap",
    "C85_restore",
    "C85_reads",
    "C85_get",
    "C85_missing",
    "demo_gap"
   ],
   "note": "by induction over the stack of histories: each has a store of its own with the invariant of C82, and commits, writes, purges and reads of the joint store are simulated by those of the part. That a skipping commit silently starts from nothing is C41; the case of a first set without insertion is C40."
  },
  {
   "property": "C88",
   "status": "proved",
   "theorems": [
    "C88_replicates",
    "C88_completes",
    "demo_live"
   ],
   "note": "the receiver (ThmLive.v: next_chunk, receive) is client code modelled on src/tests/restore.rs; each item may be read in another state of the source (reads_along of C82, with any commit or purge under way). For a hash function that is broken on the tree see C33, C35."
  },
  {
   "property": "C87",
   "status": "proved",
   "theorems": [
    "C87_reads",
    "C87_tree",
    "C87_existence_sound",
    "C87_nonexistence_sound",
    "C87_root",
    "demo_byte_keys"
   ],
   "note": "the byte-string histories and their contents are a specification of their own (bcontents, ThmKeys.v); collision names two different keys of the client with the same hash"
  },
  {
   "property": "C89",
   "status": "proved",
   "theorems": [
    "C89_backend",
    "C89_accepts",
    "archive_conforms",
    "demo_archive"
   ],
   "note": "for every record of reader, write, prune functions that conforms; archive store with delayed pruning as a second instance besides the mock store"
  },
  {
   "property": "C90",
   "status": "proved",
   "theorems": [
    "C90_values",
    "C90_accepts",
    "thrifty_conforms",
    "demo_thrifty"
   ],
   "note": "thrifty store: drops superseded values and old deletions"
  },
  {
   "property": "C91",
   "status": "proved",
   "theorems": [
    "C91_serves",
    "C91_source",
    "C91_goes_on",
    "C91_restores",
    "C91_first",
    "ark_conforms",
    "ark_restores",
    "demo_ark"
   ],
   "note": "for every conforming reader / write_node_batch / write / prune; refinement to the mock store of C82; archive store with rightmost leaf as instance"
  },
  {
   "property": "C92",
   "status": "proved",
   "theorems": [
    "C92_accepted_sound",
    "C92_store_sound",
    "C92_finish_sound",
    "demo_calls"
   ],
   "note": "for every conforming store; refused writes leave the object as the code does (frozen nodes kept); simulation by the mock store of C35"
  },
  {
   "property": "C93",
   "status": "proved",
   "theorems": [
    "C93_crash",
    "C93_concurrent",
    "C93_redo",
    "C93_redone",
    "C93_pruned",
    "demo_bcrash"
   ],
   "note": "for every conforming store and every origin of C91; the redo with other sets needs that no write of them empties the tree (C61 refutes it otherwise); the same batch can always be written again"
  },
  {
   "property": "C94",
   "status": "proved",
   "theorems": [
    "C94_streams",
    "C94_local",
    "C94_collecting",
    "C94_transparent_nodes",
    "C94_transparent_function",
    "C94_transparent_refuted"
   ],
   "note": "hashers as state machines; the false part by a computed forgery with the hash function of TransparentHasher on nodes"
  },
  {
   "property": "C95",
   "status": "proved",
   "theorems": [
    "C95_key_text",
    "C95_printable",
    "C95_hash_text",
    "C95_path_text",
    "C95_demo",
    "C95_boundaries"
   ],
   "note": "the escape sequences are prefix free (all pairs of bytes by computation), then induction on the key"
  },
  {
   "property": "C96",
   "status": "proved",
   "theorems": [
    "C96_reads",
    "C96_reads_fail",
    "C96_commits",
    "demo_breq"
   ],
   "note": "request programs (C72) over the states of a conforming store (C93)"
  },
  {
   "property": "C97",
   "status": "proved",
   "theorems": [
    "C97_hash",
    "C97_nibble",
    "C97_leaf",
    "C97_proof_node",
    "C97_proof",
    "C97_update_proof",
    "C97_range_proof",
    "C97_path",
    "C97_node_key",
    "C97_child",
    "C97_node",
    "C97_stored",
    "C97_served",
    "C97_any_text",
    "C97_many_texts_refuted",
    "C97_refused",
    "C97_spellings",
    "C97_unchecked_refuted",
    "C97_empty_node_served",
    "C97_demo",
    "C97_demo_texts"
   ],
   "note": "json_form (Json.v/ThmJson.v): read after write is the identity, the writer is injective, what is read satisfies the bounds of the type. The text level (serde_json) is modelled from its documentation as a printer and a parser. Refuted parts of the statement have concrete texts."
  },
  {
   "property": "C98",
   "status": "proved",
   "theorems": [
    "C98_pieces",
    "C98_streams",
    "C98_nodes",
    "C98_digest",
    "C98_published",
    "C98_vectors",
    "C98_demo"
   ],
   "note": "Sha256.v is FIPS 180-4 written out (checked on published digests); the crate sha2 is external and modelled from the standard. C98_vectors evaluates the model of put_value_set on the file of /repo, byte for byte."
  },
  {
   "property": "C99",
   "status": "proved",
   "theorems": [
    "C99_answers_truly",
    "C99_at_rest",
    "C99_iterates_truly",
    "C99_iterates_truly_by_index",
    "C99_interleaved_reads",
    "C99_runs",
    "demo_bpurged"
   ],
   "note": "the truth of every answer; failures may be errors or panics (C64); C99_interleaved_reads: each single request answered on its own, and requests may fail"
  },
  {
   "property": "C100",
   "status": "proved",
   "theorems": [
    "C100_requests",
    "C100_true",
    "C100_true_in_use",
    "C100_serves",
    "C100_fail",
    "demo_icsreq"
   ],
   "note": "IcsRequests.v follows ics23_impl.rs request by request (HasPreimage included); ICS23 verification as in C43 (empty raw keys and values excluded as there)"
  },
  {
   "property": "C101",
   "status": "proved",
   "theorems": [
    "C101_leaf",
    "C101_proof",
    "C101_range_proof",
    "C101_update_proof",
    "C101_node_key",
    "C101_node",
    "C101_batch",
    "C101_put_batch",
    "C101_proof_size",
    "C101_read_proof",
    "C101_order_refuted",
    "C101_json_proof",
    "C101_json_range_proof",
    "C101_json_update_proof",
    "C101_demo_bytes",
    "C101_demo_batch",
    "C101_demo_text"
   ],
   "note": "the layout is written out field by field in SpecLayout.v without reference to the codecs; refuted part: byte order of serialised node keys is not version order"
  },
  {
   "property": "C102",
   "status": "proved",
   "theorems": [
    "C102_point",
    "C102_iterates",
    "C102_flat",
    "C102_squashed_refuted",
    "demo_flat"
   ],
   "note": "refuted part: a store that restamps values at its pruning version"
  },
  {
   "property": "C103",
   "status": "proved",
   "theorems": [
    "C103_torn_writes",
    "C103_values_first",
    "C103_completes",
    "C103_lost",
    "C103_partial_nodes",
    "demo_torn"
   ],
   "note": "a torn write of the theorems stores all or none of the nodes and any of the values; writes that store some of the nodes only: C103_partial_nodes, computed on one tree only; refuted part: C103_lost, computed"
  },
  {
   "property": "C104",
   "status": "proved",
   "theorems": [
    "C104_untrusted_peers",
    "C104_completes",
    "demo_peers",
    "C104_conversation",
    "C104_careless_refuted",
    "C104_progress_refuted"
   ],
   "note": "careful_run (ThmPeers.v): an arbitrary list of messages; a client that opens the restore again after each refusal or panic. A panic is taken to leave the store as it was before the call. The two false parts of the statement are refuted with concrete messages."
  }
 ]
}
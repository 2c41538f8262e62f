{
 "claims": [
  {
   "property": "C01",
   "status": "proved",
   "theorems": [
    "C01_roundtrip"
   ],
   "note": "any provider meeting the documented map contract (proved for Mem and Bolt), any identity provider, any other activity in between"
  },
  {
   "property": "C02",
   "status": "proved",
   "theorems": [
    "C02_object_map",
    "C02_replies_determined",
    "C65_storage",
    "C65_identity_provider"
   ],
   "note": "refinement to the object map of Spec.v; the map's replies are unique unless the random source failed during the call. C65_storage and C65_identity_provider: Mem, Bolt and Standalone meet the hypotheses about storage and identity provider."
  },
  {
   "property": "C03",
   "status": "proved",
   "theorems": [
    "C03_access_exact"
   ],
   "note": ""
  },
  {
   "property": "C04",
   "status": "proved",
   "theorems": [
    "C04_refused_unchanged",
    "C04_refused_no_io"
   ],
   "note": ""
  },
  {
   "property": "C05",
   "status": "proved",
   "theorems": [
    "C05_revocation"
   ],
   "note": ""
  },
  {
   "property": "C06",
   "status": "proved",
   "theorems": [
    "C06_locked"
   ],
   "note": ""
  },
  {
   "property": "C07",
   "status": "proved",
   "theorems": [
    "C07_isolation",
    "C07_histories"
   ],
   "note": ""
  },
  {
   "property": "C08",
   "status": "proved",
   "theorems": [
    "C08_collision",
    "C08_never_overwrites",
    "C65_storage",
    "C65_identity_provider"
   ],
   "note": ""
  },
  {
   "property": "C09",
   "status": "proved",
   "theorems": [
    "C09_delete_retry",
    "C09_reads_between",
    "C09_delete_deleted"
   ],
   "note": ""
  },
  {
   "property": "C10",
   "status": "proved",
   "theorems": [
    "C10_encrypt_cut",
    "C10_orphan_unreachable"
   ],
   "note": ""
  },
  {
   "property": "C11",
   "status": "partial",
   "theorems": [
    "C11_interrupted_update_partial",
    "C11_update_atomic_refuted"
   ],
   "note": "The property as users expect it is false of the code: the _refuted theorem exhibits the crash. Proved: every interrupted Update leaves the old object, the new one, or, cut between its two writes, an object that fails to decrypt for everyone (until an Update repairs it, C12)."
  },
  {
   "property": "C12",
   "status": "proved",
   "theorems": [
    "C12_update_reads",
    "C12_access_unchanged",
    "C12_update_repairs"
   ],
   "note": "Decrypt after interrupted Updates: old, attempted or error, unless the very ciphertext that is stored is accepted by AES-GCM under two different keys"
  },
  {
   "property": "C13",
   "status": "proved",
   "theorems": [
    "C13_decrypt_authentic"
   ],
   "note": "all interleavings of any calls with an adversary rewriting storage; nothing assumed about the storage provider. Nil and empty associated data are not told apart under an adversary (the authenticated bytes are the same)"
  },
  {
   "property": "C14",
   "status": "proved",
   "theorems": [
    "C14_no_widening",
    "C14_groups_granted"
   ],
   "note": "stated through the chain of Encrypt / AddGroupsToAccess calls that put the id on a sealed list; Delete of an id without access list succeeds for any caller scoped for Delete"
  },
  {
   "property": "C15",
   "status": "partial",
   "theorems": [
    "C15_concurrent_updates_refuted",
    "C55_overlapping_calls"
   ],
   "note": "false of the code: the theorem exhibits two overlapping successful Updates after which an entitled Decrypt fails. Updates of one object that do not overlap each other, or Decrypts and access changes of it, are fine whatever else runs (C55). What Decrypt can return at all is C13; repeating Update repairs (C12)"
  },
  {
   "property": "C16",
   "status": "partial",
   "theorems": [
    "C16_revocation_race_refuted",
    "C55_overlapping_calls"
   ],
   "note": "false of the code: the theorem exhibits a successful RemoveGroupsFromAccess undone by an overlapping AddGroupsToAccess of another group. A revocation that does not overlap other changes of that object is final whatever else runs (C55). Under any concurrency C14 bounds who can be on the list"
  },
  {
   "property": "C17",
   "status": "proved",
   "theorems": [
    "C17_plaintext_only_through_cryptor"
   ],
   "note": ""
  },
  {
   "property": "C18",
   "status": "partial",
   "theorems": [
    "C18_alone_partial",
    "C18_concurrent_partial",
    "C18_memory_refuted",
    "C18_shared_slice_refuted"
   ],
   "note": "True when the slice has no spare capacity, or is not shared; with spare capacity Encrypt overwrites the cell behind it, and two concurrent Encrypts can list each other's caller (_refuted)."
  },
  {
   "property": "C19",
   "status": "proved",
   "theorems": [
    "C19_token_roundtrip_and_expiry"
   ],
   "note": "for D1 with the real cryptor, every clock; the expiry is inclusive"
  },
  {
   "property": "C20",
   "status": "proved",
   "theorems": [
    "C20_token_authentic"
   ],
   "note": "the CreateToken call passed this payload and has not answered a token with another expiry"
  },
  {
   "property": "C21",
   "status": "proved",
   "theorems": [
    "C21_token_string_lossless",
    "C21_token_string_exists",
    "C21_token_from_string_total"
   ],
   "note": ""
  },
  {
   "property": "C22",
   "status": "partial",
   "theorems": [
    "C22_single_string_form_refuted",
    "C22_produced_strings_differ_partial"
   ],
   "note": "false of the code: line breaks inside the string are ignored by the base64 decoder. Proved instead: String never gives two tokens the same string"
  },
  {
   "property": "C23",
   "status": "proved",
   "theorems": [
    "C23_wrap_roundtrip",
    "C23_other_sizes_refused"
   ],
   "note": ""
  },
  {
   "property": "C24",
   "status": "partial",
   "theorems": [
    "C24_unwrap_injective",
    "C24_unwrap_only_wrapped",
    "C24_unwrap_sizes",
    "C24_minimum_size_refuted"
   ],
   "note": "canonicity proved in full; the minimum-size clause is false of the code (Unwrap accepts key material of 9..15 bytes that Wrap refuses)"
  },
  {
   "property": "C25",
   "status": "proved",
   "theorems": [
    "C25_gcm_roundtrip",
    "C25_gcm_frame",
    "C25_gcm_refuses",
    "C25_gcm_encrypt_total",
    "C25_gcm_accepts_only_encryptions"
   ],
   "note": ""
  },
  {
   "property": "C26",
   "status": "proved",
   "theorems": [
    "C26_cryptor_roundtrip",
    "C26_cryptor_binds",
    "C26_ciphertext_size",
    "C26_documented_size_refuted"
   ],
   "note": "the size in the doc comment of Encrypt is refuted; the actual size is proved"
  },
  {
   "property": "C27",
   "status": "proved",
   "theorems": [
    "C27_object_associated_data",
    "C27_kinds_apart",
    "C27_names_bound",
    "C27_contents_bound"
   ],
   "note": "Objects: for all ids and byte strings (nil and empty associated data are the same byte string). Names of users and groups and the strings inside records are bound for valid UTF-8; C47 says what happens to others."
  },
  {
   "property": "C28",
   "status": "partial",
   "theorems": [
    "C28_left_encode",
    "C28_right_encode",
    "C28_framing_injective",
    "C28_bytepad",
    "C28_bytepad_refuted",
    "C28_standard_in_use"
   ],
   "note": "encodings and injectivity proved; bytepad deviates from SP 800-185 (an extra zero block) when the input is a multiple of the rate, never for the key and string sizes the library uses"
  },
  {
   "property": "C29",
   "status": "partial",
   "theorems": [
    "C29_kdf_single_context_partial",
    "C29_kdf_context_list_refuted"
   ],
   "note": "lists of contexts are concatenated without separators, so the list is not recoverable; with one context string per call, as used by the index, label and context are"
  },
  {
   "property": "C30",
   "status": "proved",
   "theorems": [
    "C30_generated_password_accepted",
    "C30_compare_exact",
    "C30_short_record_panics"
   ],
   "note": "PBKDF2 is a parameter; a record shorter than 16 bytes, which GeneratePassword never produces, makes Compare panic"
  },
  {
   "property": "C31",
   "status": "proved",
   "theorems": [
    "C31_mem_is_a_map",
    "C31_mem_is_a_map_from",
    "C31_proxy_is_transparent"
   ],
   "note": ""
  },
  {
   "property": "C32",
   "status": "partial",
   "theorems": [
    "C32_bolt_is_a_map_partial",
    "C32_bolt_empty_value_refuted"
   ],
   "note": "holds for non-empty values; a stored empty value is reported as not found and may be Put again"
  },
  {
   "property": "C33",
   "status": "partial",
   "theorems": [
    "C33_bolt_put_exclusive",
    "C33_mem_put_exclusive_refuted"
   ],
   "note": "Bolt: proved for any number of threads and every schedule. Mem: false, Load and Store are separate"
  },
  {
   "property": "C34",
   "status": "partial",
   "theorems": [
    "C34_mem_memory",
    "C34_mem_data_partial",
    "C34_mem_data_refuted",
    "C34_mem_returned_refuted",
    "C34_bolt_memory_partial",
    "C34_bolt_memory_refuted",
    "C34_bolt_data_partial",
    "C34_bolt_data_refuted",
    "C34_bolt_key_refuted"
   ],
   "note": "Mem never writes to memory but keeps and hands out the caller's buffer; Bolt copies data but writes its key behind the id if the capacity allows it. The partial theorems say exactly when data is safe; the refutations show the rest."
  },
  {
   "property": "C35",
   "status": "proved",
   "theorems": [
    "C35_login_exact",
    "C35_token_resolves_to_current_account"
   ],
   "note": "a user whose groups do not all exist (see C39) gets EIdGroupNotFound instead of an identity"
  },
  {
   "property": "C36",
   "status": "proved",
   "theorems": [
    "C36_standalone_refines_directory",
    "C36_directory_determined",
    "C36_replies_determined",
    "C36_no_forgery_without_foreign_tokens"
   ],
   "note": "any provider implementing the map, any interleaved activity elsewhere; forged tokens excluded by the ghost flag, which provably never goes up when only handed-out tokens are presented"
  },
  {
   "property": "C37",
   "status": "proved",
   "theorems": [
    "C37_change_effect",
    "C37_password_change"
   ],
   "note": ""
  },
  {
   "property": "C38",
   "status": "partial",
   "theorems": [
    "C38_only_members_partial",
    "C38_only_members_refuted"
   ],
   "note": "as stated false of the code: the caller's own user id counts as a group. Proved: each named id is a group of the caller or the caller's own id, and otherwise nothing changes"
  },
  {
   "property": "C39",
   "status": "partial",
   "theorems": [
    "C39_no_lockout_refuted",
    "C39_existing_groups_no_lockout_partial"
   ],
   "note": "false of the code: naming one's own user id as a group of another user makes their GetIdentity fail. Proved: no lockout when the named groups exist"
  },
  {
   "property": "C40",
   "status": "partial",
   "theorems": [
    "C40_records_bound_to_ids_refuted",
    "C57_calls_justified"
   ],
   "note": "false of the code: getUser unseals under the id inside the record, so exchanged records are accepted. What holds whatever is done to storage: logins and identities only ever use records made by the provider itself (C57)."
  },
  {
   "property": "C41",
   "status": "proved",
   "theorems": [
    "C41_contains",
    "C41_union_bits",
    "C41_union_least",
    "C41_all",
    "C41_all_is_the_union",
    "C41_none",
    "C41_new_user_scopes",
    "C41_new_group_scopes"
   ],
   "note": ""
  },
  {
   "property": "C42",
   "status": "proved",
   "theorems": [
    "C42_index_refines_lists",
    "C42_search"
   ],
   "note": "Every history of complete calls over a provider that does not fail, from an empty index. Assumes that the KMAC labels of the history's keywords and node numbers differ, and that fewer than 2^64 Adds were made. Identifiers are valid UTF-8 (see C47)."
  },
  {
   "property": "C43",
   "status": "proved",
   "theorems": [
    "C43_index_calls_end"
   ],
   "note": "After every history, including cut and failed calls, at most 4 storage operations per entry plus 5."
  },
  {
   "property": "C44",
   "status": "partial",
   "theorems": [
    "C44_interrupted_calls",
    "C44_delete_thins",
    "C44_deleted_comes_back_refuted"
   ],
   "note": "Proved: Search after an interrupted Delete shows the old list with some occurrences of the identifier missing, and identifiers can only come back with a later Add for that keyword. The last clause is false of the code: after a retried, successful Delete the identifier can come back with the next Add of another one (_refuted)."
  },
  {
   "property": "C45",
   "status": "partial",
   "theorems": [
    "C45_linearizable",
    "C45_adds_found",
    "C45_mem_refuted"
   ],
   "note": "Proved for storage whose Get and Put are atomic (Bolt): Adds and Searches linearize under every schedule. False for Mem, whose Put checks and stores in two steps (_refuted)."
  },
  {
   "property": "C46",
   "status": "proved",
   "theorems": [
    "C46_search_authentic",
    "C46_callers_authorized"
   ],
   "note": "All schedules, adversarial storage. Assumes no forged ciphertext is accepted (ghost flag), that the keywords' derived keys differ, and that no ciphertext under those keys existed before."
  },
  {
   "property": "C47",
   "status": "partial",
   "theorems": [
    "C47_reads_back",
    "C47_survives",
    "C47_groups_partial",
    "C47_identifiers_partial",
    "C47_groups_refuted",
    "C47_identifiers_refuted"
   ],
   "note": "True of exactly the well-formed UTF-8 strings; every other byte string comes back with U+FFFD in it, which lets a caller in who is in the group U+FFFD and keeps the creator out (_refuted)."
  },
  {
   "property": "C48",
   "status": "proved",
   "theorems": [
    "C48_new_checks_keys",
    "C48_new_errors",
    "C48_index_checks_key",
    "C48_index_errors",
    "C48_standalone_checks_keys",
    "C48_standalone_errors"
   ],
   "note": "Exactly 32 bytes for every key used; each key reaches its own cryptor."
  },
  {
   "property": "C49",
   "status": "partial",
   "theorems": [
    "C49_d1_never_panics",
    "C49_index_never_panics",
    "C49_standalone_get_identity_never_panics",
    "C49_standalone_no_panic_partial",
    "C49_login_shared_key_refuted"
   ],
   "note": "D1 and index: proved outright, all schedules and storage answers. Standalone: proved when the user and group keys differ, nobody else uses the user key and no forged ciphertext is accepted; false when they are the same key (_refuted: a relabelled group record in a user slot makes LoginUser panic)."
  },
  {
   "property": "C50",
   "status": "proved",
   "theorems": [
    "C50_counter_encoding_injective",
    "C50_label_collision_is_mac_collision"
   ],
   "note": ""
  },
  {
   "property": "C51",
   "status": "proved",
   "theorems": [
    "C51_interrupted_standalone_calls"
   ],
   "note": ""
  },
  {
   "property": "C52",
   "status": "partial",
   "theorems": [
    "C52_add_during_delete_refuted",
    "C62_in_turn"
   ],
   "note": "False of the code, even over Bolt: Delete of the last entry removes the node a concurrent Add has just extended. Calls that are not at odds in this way act one after the other (C62)."
  },
  {
   "property": "C53",
   "status": "proved",
   "theorems": [
    "C53_decrypt_alone",
    "C53_encrypt_alone",
    "C53_decrypt_concurrent"
   ],
   "note": ""
  },
  {
   "property": "C54",
   "status": "proved",
   "theorems": [
    "C54_encrypt_in_place",
    "C54_decrypt_in_place"
   ],
   "note": "Encrypt: if key and associated data do not overlap the overwritten cells."
  },
  {
   "property": "C55",
   "status": "proved",
   "theorems": [
    "C55_overlapping_calls",
    "C55_storage"
   ],
   "note": "For storage whose entries change in one step; C55_storage shows that Mem and Bolt are of that kind."
  },
  {
   "property": "C56",
   "status": "partial",
   "theorems": [
    "C55_overlapping_calls",
    "C56_update_decrypt_refuted",
    "C56_delete_decrypt_refuted",
    "C56_update_add_refuted"
   ],
   "note": "True with the restriction of C55. False without it: a Decrypt overlapping an Update or a Delete fails with an internal error, and AddGroupsToAccess overlapping an Update can leave an object nobody can decrypt."
  },
  {
   "property": "C57",
   "status": "proved",
   "theorems": [
    "C57_identity_authentic",
    "C57_calls_justified"
   ],
   "note": "needs the user key and the group key to differ; that a password belongs to the account of the user logging in cannot be had over such storage (C40)"
  },
  {
   "property": "C58",
   "status": "proved",
   "theorems": [
    "C58_decrypt_end_to_end",
    "C58_object_calls",
    "C58_index_calls",
    "C58_identity_calls"
   ],
   "note": "keys in use for one purpose only, and no two keywords in use with the same derived key"
  },
  {
   "property": "C59",
   "status": "partial",
   "theorems": [
    "C59_tokens_from_login_refuted",
    "C59_tokens_from_login_partial"
   ],
   "note": "True if no key is used for two purposes (missing: equal keys). False of the code if D1 and the identity provider have the same token key, which both read from a setting of the same name: CreateToken, which anyone may call, then makes a login token for any user id."
  },
  {
   "property": "C60",
   "status": "proved",
   "theorems": [
    "C60_overlapping_calls",
    "C60_storage"
   ],
   "note": "For storage whose entries change in one step; C60_storage shows that Mem and Bolt are of that kind."
  },
  {
   "property": "C61",
   "status": "partial",
   "theorems": [
    "C60_overlapping_calls",
    "C61_password_change_lost_refuted",
    "C61_removal_lost_refuted",
    "C61_late_add_refuted"
   ],
   "note": "True with the restriction of C60. False without it: NewGroup writes back the user record it has read, and so undoes a password change or a removal from a group that succeeded meanwhile; a call checks membership before it acts, and so takes effect after the caller has been removed."
  },
  {
   "property": "C62",
   "status": "proved",
   "theorems": [
    "C62_in_turn",
    "C62_storage"
   ],
   "note": "All three index calls, any interleaving, over Mem, Bolt and any storage whose entries change in one step; calls for one keyword may overlap if both are Searches. C45 covers overlapping Adds and Searches of one keyword over Bolt."
  },
  {
   "property": "C63",
   "status": "partial",
   "theorems": [
    "C63_search_during_delete_refuted",
    "C46_search_authentic",
    "C62_in_turn"
   ],
   "note": "Refuted even for Bolt: the Search stops at the entry the Delete has just removed and misses the identifiers behind it, with success. Under every schedule it returns only identifiers added for the keyword (C46)."
  },
  {
   "property": "C64",
   "status": "proved",
   "theorems": [
    "C64_few_keys",
    "C64_aad_block",
    "C64_body_block",
    "C64_tag"
   ],
   "note": "The bound on subkeys is the best that holds without assumptions on AES. Changes of the nonce are not covered: what they do depends on AES itself."
  },
  {
   "property": "C65",
   "status": "proved",
   "theorems": [
    "C65_library",
    "C65_own_tokens",
    "C65_storage",
    "C65_identity_provider"
   ],
   "note": "Complete calls one after the other; fewer than 2^64 Adds, distinct KMAC labels, and a token key of the Standalone's that nothing else uses (C59 shows that this is needed). C65_own_tokens needs no assumption about forgeries."
  },
  {
   "property": "C66",
   "status": "proved",
   "theorems": [
    "C66_revoked",
    "C66_deleted",
    "C66_identity_decides"
   ],
   "note": "Corollaries of C65 about runs of the code, stated by replies only."
  },
  {
   "property": "C67",
   "status": "proved",
   "theorems": [
    "C67_one_use_each",
    "C67_no_key_twice",
    "C67_ids_differ",
    "C67_passwords_differ"
   ],
   "note": "All schedules, with an adversary that cannot rewind the random source. That the source does not repeat itself is a hypothesis of the last three (it is about crypto/rand), not of the first. The salts of password hashes are not in the statement."
  },
  {
   "property": "C68",
   "status": "proved",
   "theorems": [
    "C68_requests",
    "C68_recording_is_storage"
   ],
   "note": "All schedules, any storage. Says what is written and under which ids; access patterns, sizes and the user and group ids that are read are visible to storage."
  },
  {
   "property": "C69",
   "status": "proved",
   "theorems": [
    "C69_transparent",
    "C69_unhindered",
    "C69_context_kept"
   ],
   "note": "All schedules. The last theorem is for loggers that are the same or lie in different arrays. zerolog is re-specified."
  },
  {
   "property": "C70",
   "status": "partial",
   "theorems": [
    "C70_own_lines_partial",
    "C70_in_turn",
    "C70_mixed_refuted"
   ],
   "note": "False of overlapping calls that share a logger with room behind its context (C70_mixed_refuted, finding 26). Proved for all schedules if no two loggers share such room, and for calls made one after another whatever they share."
  },
  {
   "property": "C71",
   "status": "proved",
   "theorems": [
    "C71_kmac256",
    "C71_kmac128",
    "C71_refused256",
    "C71_refused128",
    "C71_standard",
    "C71_key_derivation",
    "C71_tag"
   ],
   "note": "All sequences of calls. x/crypto/sha3 is re-specified as an object, with its buffering."
  },
  {
   "property": "C72",
   "status": "proved",
   "theorems": [
    "C72_history",
    "C72_reads_written",
    "C72_revoked",
    "C72_durable"
   ],
   "note": "Every call through its own failing provider, answered or cut anywhere. One exception is written into the specification: Decrypt of an object whose Update died half way may return something else if the stored ciphertext is accepted by AES-GCM under two different keys."
  },
  {
   "property": "C73",
   "status": "proved",
   "theorems": [
    "C73_library",
    "C73_revoked",
    "C73_deleted"
   ],
   "note": "Assumes as C65 does that nobody forges a token and that the key of the tokens is used for nothing else; Decrypt of an object whose Update died half way carries the exception of C72, and the index the ones of C44."
  },
  {
   "property": "C74",
   "status": "proved",
   "theorems": [
    "C74",
    "C74_storage"
   ],
   "note": "All interleavings, over Mem, Bolt and any storage whose entries change in one step and whose writes leave other entries alone. Calls of one kind that are at odds must not overlap: C56, C61, C52 and C63 show what happens if they do."
  },
  {
   "property": "C75",
   "status": "proved",
   "theorems": [
    "C75_deleted",
    "C75_revoked",
    "C75_identity"
   ],
   "note": "From C74, under its hypotheses. For calls made after the answer; calls already going on: C76."
  },
  {
   "property": "C76",
   "status": "partial",
   "theorems": [
    "C76_one_moment_refuted"
   ],
   "note": "Refuted: the token is looked up at one moment and the call acts at a later one, so a call that is going on when the user is taken out of a group or deleted goes through, and may report what happened after that. What does hold is C74, two moments per call, and C75, for calls made afterwards."
  },
  {
   "property": "C77",
   "status": "proved",
   "theorems": [
    "C77_decrypt",
    "C77_deleted_object",
    "C77_search"
   ],
   "note": "From C74, under its hypotheses. Reads made after the answers; Search excludes keywords with a Delete that failed half way for lack of randomness."
  },
  {
   "property": "C78",
   "status": "proved",
   "theorems": [
    "C78_present",
    "C78_absent",
    "C78_refused"
   ],
   "note": "From C74, under its hypotheses. For the calls made after the answer that shows the entry; calls already under way are C76."
  },
  {
   "property": "C79",
   "status": "proved",
   "theorems": [
    "C79_password",
    "C79_other_password",
    "C79_member",
    "C79_allowed",
    "C79_shared"
   ],
   "note": "From C74, under its hypotheses. Login also needs a working random source and a clock before the year 9999, as the code does."
  },
  {
   "property": "C80",
   "status": "proved",
   "theorems": [
    "C80_object",
    "C80_list",
    "C80_search",
    "C80_identity",
    "C80_caller"
   ],
   "note": "From C74, under its hypotheses. A group may also stem from a NewGroup that failed late for lack of randomness: the code leaves it behind (C36)."
  },
  {
   "property": "C81",
   "status": "proved",
   "theorems": [
    "C81_object_calls",
    "C81_identity_calls",
    "C81_assembled",
    "C81_storages"
   ],
   "note": "The coefficient of k is the number of calls to the storage. For calls with a token the bound depends on the number of groups of the users read. Index calls are C43. Waiting inside the storage (bbolt's lock) is the storage's own: a storage call is taken to end after at most k steps."
  },
  {
   "property": "C82",
   "status": "proved",
   "theorems": [
    "C82_object_tag",
    "C82_object_data",
    "C82_list_tag",
    "C82_list_data"
   ],
   "note": "From C64 and without the ghost flag for forgeries. The changes are those of C64 that are refused under every key: the tag, or the data inside one block. Changes of the nonce, the wrapped key or the associated data are covered by C13 and C14 under the assumption that nothing is forged."
  },
  {
   "property": "C83",
   "status": "proved",
   "theorems": [
    "C83_contents",
    "C83_identity"
   ],
   "note": "From C64 and without the ghost flag for forgeries. A change of the nonce or of the wrapped key is not covered here; C20 is about those under the assumption that nothing is forged."
  }
 ]
}
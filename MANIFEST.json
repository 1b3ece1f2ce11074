{
 "claims": [
  {
   "property": "C01",
   "status": "proved",
   "theorems": [
    "C01_round_trip_value",
    "C01_round_trip_pointer",
    "C01_marshal_succeeds",
    "C01_marshal_pointer_succeeds",
    "C01_empty_key_refuted",
    "C01_pointer_in_slice_refuted"
   ],
   "note": "For every value the predicate `survives` describes; the refutations show two of its conditions are needed."
  },
  {
   "property": "C02",
   "status": "proved",
   "theorems": [
    "C02_marshal_canonical",
    "C02_marshal_denotes",
    "C02_nil_element_refuted"
   ],
   "note": "For values without nil list elements / nil map values and custom methods that themselves return canonical text; the last theorem shows the nil condition is needed."
  },
  {
   "property": "C03",
   "status": "proved",
   "theorems": [
    "C03_map_order_irrelevant"
   ],
   "note": "All values, all iteration orders at all nesting levels; custom methods assumed order independent."
  },
  {
   "property": "C04",
   "status": "proved",
   "theorems": [
    "C04_canonical_decodes_and_reencodes",
    "C04_empty_key_refuted"
   ],
   "note": "The refutation shows the non-empty-key condition is needed."
  },
  {
   "property": "C05",
   "status": "proved",
   "theorems": [
    "C05_method_gets_exact_bytes",
    "C05_method_gets_only_items",
    "C05_raw_message"
   ],
   "note": ""
  },
  {
   "property": "C06",
   "status": "proved",
   "theorems": [
    "C06_skip_iff_decode",
    "C06_raw_iff_any",
    "C06_unknown_key",
    "C06_unknown_key_bad_value"
   ],
   "note": ""
  },
  {
   "property": "C07",
   "status": "partial",
   "theorems": [
    "C07_no_panic_partial",
    "C07_negative_length_refuted",
    "C07_pointer_slice_refuted"
   ],
   "note": "False as stated: '-1:' panics, and so do nil pointers inside slices. Proved: for ready targets, a panic implies a negative or impossible length in the input."
  },
  {
   "property": "C08",
   "status": "proved",
   "theorems": [
    "C08_terminates",
    "C08_fuel_immaterial",
    "C08_offset_and_no_overread"
   ],
   "note": "In-memory input; memory and stack limits are not modelled."
  },
  {
   "property": "C09",
   "status": "proved",
   "theorems": [
    "C09_depth_limit_exact"
   ],
   "note": "Success implies no path through 1001 containers; the depth error implies one; other errors and panics may pre-empt either."
  },
  {
   "property": "C10",
   "status": "partial",
   "theorems": [
    "C10_keys_ascend_without_duplicates",
    "C10_shallowest_wins",
    "C10_unique_shallowest_is_emitted_and_decoded",
    "C10_emitted_fields_are_candidates",
    "C10_single_tagged_wins_refuted",
    "C10_ambiguous_not_decoded_refuted"
   ],
   "note": "Proved: ascending unique keys, shallowest wins, a unique shallowest field is emitted and decoded. The rest of the statement is false of the code: a single tagged field may lose, and ambiguous keys are decoded (witnesses)."
  },
  {
   "property": "C100",
   "status": "proved",
   "theorems": [
    "C100_understood",
    "C100_frames",
    "C100_too_long_refuted",
    "C100_received_range"
   ],
   "note": "At most 2^32 pieces of at most 2^32 bytes; no REQUEST of 2^32 - 9 bytes or more from that peer."
  },
  {
   "property": "C101",
   "status": "proved",
   "theorems": [
    "C101_blocks_right",
    "C101_checks_pass",
    "C101_nobody_blocked",
    "C101_in_range",
    "C101_crash_partial",
    "C101_no_crash_refuted"
   ],
   "note": "Pieces of at most 2^63 - 16384 bytes; no two contents of a piece with the same SHA-1. That members do not crash is refuted."
  },
  {
   "property": "C102",
   "status": "proved",
   "theorems": [
    "C102_connection_lock",
    "C102_calls_return",
    "C102_requests_end"
   ],
   "note": "Pieces of at most 2^63 - 16384 bytes. Writes and the deadline of requestBlock may end at any time. The calls of the storage around the waiting of requestPiece are not included: they can deadlock (C44)."
  },
  {
   "property": "C103",
   "status": "proved",
   "theorems": [
    "C103_single_file",
    "C103_many_files",
    "C103_in_the_storage"
   ],
   "note": "The piece files do not change while they are copied."
  },
  {
   "property": "C104",
   "status": "proved",
   "theorems": [
    "C104_single_file",
    "C104_many_files"
   ],
   "note": ""
  },
  {
   "property": "C105",
   "status": "partial",
   "theorems": [
    "C105_single_file_partial",
    "C105_many_targets_partial",
    "C105_many_files_refuted",
    "C105_errors_refuted"
   ],
   "note": "Refuted: completing a torrent of many files always leaves a piece file open, and after an error a piece file and a target file can be open. Proved: a torrent of one file closes everything unless there is an error, one of many files all its target files. (Go's garbage collector closes such files some time.)"
  },
  {
   "property": "C106",
   "status": "proved",
   "theorems": [
    "C106_start_never_returns_nil",
    "C106_start_returns_for_a_reason",
    "C106_failed_start_is_reported",
    "C106_first_failure_is_returned"
   ],
   "note": ""
  },
  {
   "property": "C107",
   "status": "partial",
   "theorems": [
    "C107_ends_for_a_reason_partial",
    "C107_all_loops_run",
    "C107_failed_announce_ends_it_refuted",
    "C107_failed_accept_ends_it_refuted"
   ],
   "note": "False of the code: one failed announce, or one failed Accept, ends the server for good. Proved: nothing else does, except Stop."
  },
  {
   "property": "C108",
   "status": "partial",
   "theorems": [
    "C108_started_at_most_once_partial",
    "C108_announce_after_started_partial",
    "C108_stopped_count",
    "C108_stopped_once_refuted",
    "C108_nothing_after_stopped_refuted"
   ],
   "note": "False of the code for the stop: a server stopped by the user tells the tracker at least twice, and announces (or the start itself) may follow. Proved: the start is told at most once and comes before the announces; the exact number of times the stop is told."
  },
  {
   "property": "C109",
   "status": "partial",
   "theorems": [
    "C109_completed_is_sent_refuted"
   ],
   "note": "False of the code: the event is never sent, Complete has no callers."
  },
  {
   "property": "C11",
   "status": "proved",
   "theorems": [
    "C11_unsorted_rejected"
   ],
   "note": "Any target type, any nesting, any trailing bytes."
  },
  {
   "property": "C110",
   "status": "partial",
   "theorems": [
    "C110_second_load_panics_refuted",
    "C110_second_load_partial"
   ],
   "note": "False of the code once a piece is stored: the second Load delivers the piece's future again and panics. Proved for storages without pieces."
  },
  {
   "property": "C111",
   "status": "proved",
   "theorems": [
    "C111_stopped_means_closed",
    "C111_not_started"
   ],
   "note": ""
  },
  {
   "property": "C112",
   "status": "proved",
   "theorems": [
    "C112_can_come_to_rest",
    "C112_rest_is_final"
   ],
   "note": "The rest of the server releases Server.mu in this run; that this can fail for ever is C70. Answers of the tracker that crash the process are C31 and C61."
  },
  {
   "property": "C113",
   "status": "partial",
   "theorems": [
    "C113_ipv4_peers_are_dialled_partial",
    "C113_ipv6_peers_are_never_reached_refuted"
   ],
   "note": "False of the code for IPv6: the address is formatted without brackets and net.Dial refuses it, so no IPv6 peer is ever reached. Proved for IPv4."
  },
  {
   "property": "C114",
   "status": "partial",
   "theorems": [
    "C114_blocked_ipv4_is_not_added_partial",
    "C114_blocked_ipv6_is_added_refuted"
   ],
   "note": "False of the code for IPv6: Block remembers the address with brackets, AddPeer looks it up without. Proved for IPv4 and a peer that is registered when it is blocked."
  },
  {
   "property": "C115",
   "status": "partial",
   "theorems": [
    "C115_accepted_partial",
    "C115_accepted_typed_partial",
    "C115_junk_refuted",
    "C115_not_canonical_refuted"
   ],
   "note": "False of the code as stated: bytes after the first item are ignored, and plus signs and leading zeros of lengths are accepted. Proved: the accepted texts are exactly those that begin with an item of a slightly larger language, and the result is what the item spells."
  },
  {
   "property": "C116",
   "status": "proved",
   "theorems": [
    "C116_encodings_tell_apart",
    "C116_encodings_tell_apart_pointer",
    "C116_texts_mean_one_thing"
   ],
   "note": "For the values of C01 (those whose decoding gives back their data)."
  },
  {
   "property": "C117",
   "status": "proved",
   "theorems": [
    "C117_torrent_can_be_downloaded"
   ],
   "note": "Existence of a run: the code does not guarantee that every run completes (see the refutations on lost and stuck pieces)."
  },
  {
   "property": "C118",
   "status": "proved",
   "theorems": [
    "C118_client_gets_torrent_from_client"
   ],
   "note": "Existence of a run of both clients: the code does not guarantee that every run completes (see the refutations on lost and stuck pieces)."
  },
  {
   "property": "C119",
   "status": "partial",
   "theorems": [
    "C119_no_leftovers_partial",
    "C119_leftovers_stay",
    "C119_killed_leaves_files_refuted"
   ],
   "note": "False of the code if the process is killed while a call works: temporary files and the piece files of a complete torrent are then left for good. Proved for kills between steps on a disk whose calls do not fail."
  },
  {
   "property": "C12",
   "status": "partial",
   "theorems": [
    "C12_int_partial",
    "C12_uint_partial",
    "C12_int64",
    "C12_uint64",
    "C12_refuted"
   ],
   "note": "False for narrow targets: i300e into uint8 stores 44 (C12_refuted). Proved: reduced modulo the width; exact when in range; always exact for 64-bit targets."
  },
  {
   "property": "C120",
   "status": "proved",
   "theorems": [
    "C120_complete_is_left_alone"
   ],
   "note": ""
  },
  {
   "property": "C121",
   "status": "proved",
   "theorems": [
    "C121_unknown_entries_do_not_matter"
   ],
   "note": ""
  },
  {
   "property": "C122",
   "status": "partial",
   "theorems": [
    "C122_new_peers_are_queued_partial",
    "C122_lost_peers_are_never_tried_again_refuted"
   ],
   "note": "False of the code: knownPeers is never cleared, so every address is dialled at most once in the life of a server, also when the dial failed or the connection was lost. Proved: the first time it is named it is queued."
  },
  {
   "property": "C123",
   "status": "partial",
   "theorems": [
    "C123_requests_remembered_partial",
    "C123_cancels_are_kept_refuted"
   ],
   "note": "False of the code: canceledRequests grows with every CANCEL for a block that is not requested afterwards. Proved: at most 16 own requests, and at most one entry per CANCEL received."
  },
  {
   "property": "C124",
   "status": "proved",
   "theorems": [
    "C124_metainfo_file_is_standard",
    "C124_info_text_is_standard"
   ],
   "note": "For every Metainfo (one file or many) Marshal gives the canonical text of metainfo_dict, the dictionary of BEP 3 written out in MetainfoTextSpec.v. Hypothesis: the creation date counted from 1970 fits an int64 (time.Unix). An Info without pieces is written without a pieces key, as the specification says."
  },
  {
   "property": "C125",
   "status": "proved",
   "theorems": [
    "C125_struct_is_the_dictionary_of_its_fields",
    "C125_map_is_the_dictionary_of_its_entries",
    "C125_slice_is_the_list_of_its_elements"
   ],
   "note": "Structs without embedded fields (C10 treats which embedded fields are found). The tag options and what counts as empty are stated anew in BencPartsSpec.v. The parts of structs and slices are compared with Marshal of a pointer to them, as they are addressable; map values with Marshal of the value."
  },
  {
   "property": "C126",
   "status": "proved",
   "theorems": [
    "C126_struct_succeeds_with_its_fields",
    "C126_map_succeeds_with_its_entries",
    "C126_slice_succeeds_with_its_elements"
   ],
   "note": "Together with C125: Marshal succeeds on the whole exactly when it does on the parts, within the nesting limit (C09)."
  },
  {
   "property": "C127",
   "status": "partial",
   "theorems": [
    "C127_asked_at_its_url_partial",
    "C127_other_schemes_are_refused",
    "C127_own_parameters_are_lost_refuted"
   ],
   "note": "False of the code: url.RawQuery is overwritten, so the parameters in the URL (a passkey) are lost; whatever they are, the same request is sent. Proved: host, path and announce arrive as they should; other schemes are refused. Hosts with brackets, user info or escapes and redirects are not modelled."
  },
  {
   "property": "C128",
   "status": "proved",
   "theorems": [
    "C128_have_at_most_once",
    "C128_on_the_wire"
   ],
   "note": "For the server on its own and for all messages written to a connection of the whole client. A HAVE may repeat what the BITFIELD of a new connection already said: a peer that joins between the storing and the announcing of a piece is told both ways."
  },
  {
   "property": "C129",
   "status": "partial",
   "theorems": [
    "C129_tiers_keep_their_trackers_partial",
    "C129_calls_are_bounded",
    "C129_outcomes",
    "C129_first_tracker_answers",
    "C129_undisturbed_call",
    "C129_lost_tracker_refuted",
    "C129_lost_is_forever",
    "C129_skipped_tracker_refuted"
   ],
   "note": "False of the code: nothing protects the tiers. A tracker can be overwritten by another one, and is then never asked again; a call can skip a tracker that answers every request and return an error. Proved: a tier gets no strange tracker and keeps its length, a call asks at most as often as there are trackers, nothing goes wrong while the first tracker answers, and a call that no other interrupts does what C48 says."
  },
  {
   "property": "C13",
   "status": "proved",
   "theorems": [
    "C13_stream"
   ],
   "note": "Any number of items of any types."
  },
  {
   "property": "C130",
   "status": "partial",
   "theorems": [
    "C130_listed_as_announced_since_partial",
    "C130_old_id_stays",
    "C130_restarted_client_refuted"
   ],
   "note": "False of the code: ServeHTTP makes the entry of an address once and never updates its ID, so a client started again within a minute keeps the old ID as long as it goes on announcing, and whoever dials it with that ID refuses the handshake. Proved: the ID is the one of the first announce since the tracker last forgot the address."
  },
  {
   "property": "C131",
   "status": "partial",
   "theorems": [
    "C131_interested_is_meant",
    "C131_not_interested_is_meant",
    "C131_wanted_peer_was_asked",
    "C131_wanted_peer_knows_partial",
    "C131_no_more_news",
    "C131_wanted_peer_knows_refuted",
    "C131_unwanted_peer_knows_refuted"
   ],
   "note": "False of the code: Interest and NotInterest set the flag and send the message in two steps, so their messages can arrive in the wrong order; the peer is then left with NOT_INTERESTED, and Interest, finding the flag set, says nothing more although the peer has a piece we lack. And a peer that chokes us is not told when nothing is left to get from it. Proved: both messages are sent for a reason only, INTERESTED has been sent to every peer with a missing piece, it is the last word unless the two calls cross, and while the piece is missing nothing more is said."
  },
  {
   "property": "C132",
   "status": "proved",
   "theorems": [
    "C132_answered_in_order",
    "C132_answered_before_the_next",
    "C132_never_more_than_asked"
   ],
   "note": "Blocks are compared by piece and offset; that the data is the one asked for is C75 and C37."
  },
  {
   "property": "C133",
   "status": "partial",
   "theorems": [
    "C133_failed_write_is_final",
    "C133_failed_assembly_is_not_reported",
    "C133_failed_assembly_is_final",
    "C133_failed_put_can_be_repeated_refuted",
    "C133_restart_assembles_partial"
   ],
   "note": "False of the code. After an I/O error in PutBlock the piece refuses every further block and ResetPiece on it panics, for the rest of the run (failed_write_is_final); if the assembly of the torrent failed, all pieces are advertised, Torrent.Wait never returns and no call changes the disk (failed_assembly_is_not_reported, failed_assembly_is_final); a witness shows both (refuted). What holds: a restart whose Load succeeds assembles the torrent (restart_assembles_partial)."
  },
  {
   "property": "C134",
   "status": "partial",
   "theorems": [
    "C134_left_idle_only_if_taken_partial",
    "C134_taken_at_the_time_refuted"
   ],
   "note": "False for that moment: a goroutine that fetches a piece takes it off the list without the lock, so the peer can be left idle (for a second) although nobody is at work on the piece any more. Proved: someone was at work on it at a moment since the server began to look."
  },
  {
   "property": "C135",
   "status": "proved",
   "theorems": [
    "C135_torrents_fixed",
    "C135_sweep_leaves_the_live",
    "C135_holds_until_forgotten",
    "C135_memory_bounded"
   ],
   "note": "The goroutine that sweeps every minute is the event EvSweep, which may happen at any time; that it does happen each minute (the ticker) is not modelled."
  },
  {
   "property": "C136",
   "status": "partial",
   "theorems": [
    "C136_both_stay_right_partial",
    "C136_nothing_is_lost_partial",
    "C136_serves_its_own_partial",
    "C136_wait_means_its_own_partial",
    "C136_same_name_refuted"
   ],
   "note": "False of the code for two torrents of the same name: Load takes the other one's file for its own. Proved for different names. Simplified: steps of the two storages interleave as coarsely as those of one."
  },
  {
   "property": "C137",
   "status": "partial",
   "theorems": [
    "C137_load_panics_only_partial",
    "C137_stray_name_panics",
    "C137_target_is_trusted",
    "C137_names_are_trusted",
    "C137_load_copes_refuted",
    "C137_found_is_verified_refuted"
   ],
   "note": "Both halves are false of the code. Load panics exactly when there is no target and the pieces directory holds a name that starts like a piece the torrent does not have, or two names that start like the same piece (0.piece and 0.piece~): proved in both directions for every disk (the converse when no os call fails). Whatever is at TargetDir/Name is advertised in full unverified: proved for every disk, and a concrete run hands out wrong bytes. Without a target exactly the pieces named in the directory are advertised, whatever their contents."
  },
  {
   "property": "C138",
   "status": "partial",
   "theorems": [
    "C138_right_length",
    "C138_reading_changes_nothing",
    "C138_right_place_partial",
    "C138_cut_file_refuted"
   ],
   "note": "The length is right and nothing changes: proved from every state. The place is proved for a complete torrent of one file; for blocks served from piece files see C37, which needs a disk only the program writes to. With several files the claim is false: the bytes missing from a file that was cut short are made up for with bytes of the next one, without an error."
  },
  {
   "property": "C14",
   "status": "partial",
   "theorems": [
    "C14_struct_partial",
    "C14_slice_partial",
    "C14_slice_refuted",
    "C14_map"
   ],
   "note": "Struct fields and maps as stated (present keys decode over the old content of the field); the list part is false of the code, a longer old slice keeps its tail; C14_slice_partial gives the exact result."
  },
  {
   "property": "C15",
   "status": "proved",
   "theorems": [
    "C15_bitfield_is_a_set",
    "C15_add_step",
    "C15_has_is_membership"
   ],
   "note": "All sizes, all Add sequences."
  },
  {
   "property": "C16",
   "status": "proved",
   "theorems": [
    "C16_items"
   ],
   "note": ""
  },
  {
   "property": "C17",
   "status": "proved",
   "theorems": [
    "C17_difference"
   ],
   "note": ""
  },
  {
   "property": "C18",
   "status": "partial",
   "theorems": [
    "C18_panic_domain",
    "C18_negative_harmless",
    "C18_refuted"
   ],
   "note": "The exact panic domain is proved; the listed statement is false for -8 < i < 0, where the code silently does nothing instead of panicking (witness in C18_refuted)."
  },
  {
   "property": "C19",
   "status": "proved",
   "theorems": [
    "C19_handshake_round_trip",
    "C19_handshake_accepts_exactly"
   ],
   "note": "Segments carry at least one byte each (no zero-byte reads)."
  },
  {
   "property": "C20",
   "status": "proved",
   "theorems": [
    "C20_message_round_trip",
    "C20_encoding_is_the_protocol",
    "C20_frames_are_understood"
   ],
   "note": ""
  },
  {
   "property": "C21",
   "status": "proved",
   "theorems": [
    "C21_segmentation_irrelevant",
    "C21_handshake_segmentation_irrelevant",
    "C21_conversation",
    "C21_empty_read_refuted"
   ],
   "note": "Messages: any segmentation, empty reads included. Handshake: any segmentation into non-empty reads; the last theorem shows that this condition is needed."
  },
  {
   "property": "C22",
   "status": "partial",
   "theorems": [
    "C22_panics_exactly_partial",
    "C22_refuted",
    "C22_handshake_never_panics"
   ],
   "note": "False of the code: a complete frame too short for its type panics. The exact set of panicking streams is proved."
  },
  {
   "property": "C23",
   "status": "proved",
   "theorems": [
    "C23_length_prefix"
   ],
   "note": ""
  },
  {
   "property": "C24",
   "status": "proved",
   "theorems": [
    "C24_piece_lengths_partition"
   ],
   "note": "For every well_formed info (sizes non-negative, total an int64, piece count = ceil)."
  },
  {
   "property": "C25",
   "status": "proved",
   "theorems": [
    "C25_info_hash"
   ],
   "note": "crypto/sha1 is a parameter of the model; the theorem holds for every function."
  },
  {
   "property": "C26",
   "status": "proved",
   "theorems": [
    "C26_pieces_round_trip",
    "C26_pieces_split",
    "C26_pieces_only_strings"
   ],
   "note": ""
  },
  {
   "property": "C27",
   "status": "partial",
   "theorems": [
    "C27_multi_file_refuted",
    "C27_files_never_decoded_refuted"
   ],
   "note": "False of the code: the decoder dereferences the nil *File it creates in the slice, so a non-empty files list panics, and no document ever decodes to an Info with files."
  },
  {
   "property": "C28",
   "status": "proved",
   "theorems": [
    "C28_metainfo_round_trip",
    "C28_info_by_value_refuted"
   ],
   "note": "Marshalled through a pointer. The refutation shows an Info marshalled by value cannot be read back."
  },
  {
   "property": "C29",
   "status": "proved",
   "theorems": [
    "C29_compact_round_trip",
    "C29_compact_reject",
    "C29_compact_accept"
   ],
   "note": ""
  },
  {
   "property": "C30",
   "status": "proved",
   "theorems": [
    "C30_request_round_trip",
    "C30_request_decode_meaning"
   ],
   "note": ""
  },
  {
   "property": "C31",
   "status": "partial",
   "theorems": [
    "C31_peers_panic_refuted",
    "C31_start_panic_refuted",
    "C31_start_no_other_panic_partial",
    "C31_peers_no_other_panic_partial",
    "C31_response_no_other_panic_partial"
   ],
   "note": "False of the code: witnesses crash the client. The _partial theorems list every way a body can crash it."
  },
  {
   "property": "C32",
   "status": "partial",
   "theorems": [
    "C32_live_peers_partial",
    "C32_self_listed_refuted"
   ],
   "note": "False when a peer announces an address in non-standard text (IPv4-mapped IPv6): it is listed to itself. Proved for histories of standard texts."
  },
  {
   "property": "C33",
   "status": "partial",
   "theorems": [
    "C33_decodable_partial",
    "C33_empty_list_refuted"
   ],
   "note": "False for the empty non-compact list; proved for every other reply."
  },
  {
   "property": "C34",
   "status": "partial",
   "theorems": [
    "C34_ipv4_history_partial",
    "C34_ipv6_refuted"
   ],
   "note": "False once an IPv6 peer is live; proved for IPv4 histories."
  },
  {
   "property": "C35",
   "status": "proved",
   "theorems": [
    "C35_magnet_fields",
    "C35_query_total",
    "C35_escaped_query"
   ],
   "note": "For links of the form magnet:?query without fragment or control characters. An empty xl counts as absent."
  },
  {
   "property": "C36",
   "status": "proved",
   "theorems": [
    "C36_stored_pieces_are_verified",
    "C36_served_blocks_are_verified"
   ],
   "note": "Every sequence and interleaving of calls, crashes and restarts; crypto/sha1 is a parameter. A range outside the piece can only return bytes of the verified whole torrent."
  },
  {
   "property": "C37",
   "status": "proved",
   "theorems": [
    "C37_block_is_the_requested_range",
    "C37_same_bytes_always",
    "C37_complete_piece_is_readable"
   ],
   "note": "For ranges inside the piece."
  },
  {
   "property": "C38",
   "status": "proved",
   "theorems": [
    "C38_target_is_the_torrent",
    "C38_wait_means_in_place",
    "C38_last_block_means_in_place"
   ],
   "note": ""
  },
  {
   "property": "C39",
   "status": "proved",
   "theorems": [
    "C39_disk_is_consistent_at_every_crash_point",
    "C39_load_recovers"
   ],
   "note": "Process crashes, within any step at any file system operation, and failures of any os call. Loss of unsynced data by the machine is not modelled."
  },
  {
   "property": "C40",
   "status": "partial",
   "theorems": [
    "C40_piece_can_be_downloaded_again_refuted",
    "C40_failed_piece_refuses_everything",
    "C40_piece_can_be_downloaded_again_partial"
   ],
   "note": "False of the code: ResetPiece on a failed piece closes a closed channel, and its blocks are never dropped. Proved for pieces that have not failed."
  },
  {
   "property": "C41",
   "status": "proved",
   "theorems": [
    "C41_requests_tile_the_piece"
   ],
   "note": "For pieces of at most 2^63-16384 bytes (above, the loop variable overflows)."
  },
  {
   "property": "C42",
   "status": "partial",
   "theorems": [
    "C42_put_block_never_panics_refuted",
    "C42_put_block_results_partial"
   ],
   "note": "False of the code: blocks outside the piece that pass the size check panic. Proved for offsets inside existing pieces."
  },
  {
   "property": "C43",
   "status": "partial",
   "theorems": [
    "C43_downloaded_counts_verified_bytes_refuted",
    "C43_downloaded_after_load_partial",
    "C43_downloaded_value_partial"
   ],
   "note": "False of the code: PutBlock counts failed pieces instead of verified ones. Proved for Load; C43_downloaded_value_partial says exactly what the counter is: the bytes found by Load plus the sizes of the pieces that failed since."
  },
  {
   "property": "C44",
   "status": "partial",
   "theorems": [
    "C44_never_deadlock_refuted",
    "C44_deadlock_is_forever",
    "C44_only_deadlock_partial"
   ],
   "note": "False of the code: GetBlock and PutBlock of one piece take the two locks in opposite orders. Proved: this is the only deadlock."
  },
  {
   "property": "C45",
   "status": "partial",
   "theorems": [
    "C45_files_stay_inside_refuted",
    "C45_files_stay_inside_partial"
   ],
   "note": "False of the code: file paths with .. leave the directories. Proved for plain names."
  },
  {
   "property": "C46",
   "status": "proved",
   "theorems": [
    "C46_bitfield_is_the_complete_pieces",
    "C46_bits_are_never_cleared"
   ],
   "note": "At all moments between the critical sections of storage/; inside one the new piece is on disk before its bit is set."
  },
  {
   "property": "C47",
   "status": "partial",
   "theorems": [
    "C47_every_waiter_gets_the_value_refuted",
    "C47_futures_any_calls",
    "C47_every_waiter_gets_the_value_partial"
   ],
   "note": "False with a second Deliver, which overwrites the value before it panics; everything else is proved for any number of calls, and in full for one Deliver."
  },
  {
   "property": "C48",
   "status": "proved",
   "theorems": [
    "C48_failover",
    "C48_membership"
   ],
   "note": "Outcomes of requests are an arbitrary function of the request number and tracker; random choices are arbitrary."
  },
  {
   "property": "C49",
   "status": "proved",
   "theorems": [
    "C49_one_download_loop"
   ],
   "note": "All interleavings of the server's goroutines; see P2PServer.v for the grain of the steps."
  },
  {
   "property": "C50",
   "status": "partial",
   "theorems": [
    "C50_one_requester_per_piece",
    "C50_requests_announced_missing_partial",
    "C50_never_when_stored_refuted"
   ],
   "note": "One requester and announced: proved. Missing when requested: false, the piece may be stored between the look and the request; proved at the look."
  },
  {
   "property": "C51",
   "status": "partial",
   "theorems": [
    "C51_limits",
    "C51_one_per_identity_partial",
    "C51_one_per_identity_refuted"
   ],
   "note": "The limits are proved. One connection per id and IP is false after a Block; proved without."
  },
  {
   "property": "C52",
   "status": "partial",
   "theorems": [
    "C52_refused_partial",
    "C52_lock_released_partial",
    "C52_refused_lock_refuted",
    "C52_refused_registered_refuted"
   ],
   "note": "False of the code: Connect returns without unlocking when it refuses, and leaves a peer registered when the bitfield cannot be sent. Proved: exactly in which cases; otherwise the lock is released."
  },
  {
   "property": "C53",
   "status": "partial",
   "theorems": [
    "C53_once",
    "C53_blocked_partial",
    "C53_never_again_refuted"
   ],
   "note": "Queued and dialled once: proved. False for a dial that has begun and for a blocked peer that was already disconnected; proved otherwise."
  },
  {
   "property": "C54",
   "status": "partial",
   "theorems": [
    "C54_no_requests_choked_partial",
    "C54_request_after_choke_refuted",
    "C54_pieces_answer",
    "C54_no_pieces_choked_partial",
    "C54_piece_after_choke_refuted",
    "C54_messages_on_changes",
    "C54_changes",
    "C54_told_partial",
    "C54_told_refuted"
   ],
   "note": "False as stated: one request, or one piece, may still be written after the choke; proved that it is at most one. Messages on changes only: proved. If calls overlap, what the remote was told last can be wrong."
  },
  {
   "property": "C55",
   "status": "proved",
   "theorems": [
    "C55_handshake_iff",
    "C55_connected_after_handshake"
   ],
   "note": "The random string and sockets are parameters."
  },
  {
   "property": "C56",
   "status": "partial",
   "theorems": [
    "C56_dropped_cancelled",
    "C56_looked_up",
    "C56_requests_served_partial",
    "C56_stale_cancel_refuted"
   ],
   "note": "False of the code: a cancel for a request already served is kept and drops the next request for the block. Each cancel drops at most one request, for the same block: proved."
  },
  {
   "property": "C57",
   "status": "partial",
   "theorems": [
    "C57_no_panic",
    "C57_once",
    "C57_refused",
    "C57_entered",
    "C57_outcome",
    "C57_returns",
    "C57_answered_partial",
    "C57_at_most_16",
    "C57_overlap_refuted",
    "C57_answered"
   ],
   "note": "At most once, the right outcome, no panic: proved. That an answer ends the wait needs requestPiece calls on the peer not to overlap ; for a connection on its own this is refuted; in the client they do not overlap (C57_answered)."
  },
  {
   "property": "C58",
   "status": "partial",
   "theorems": [
    "C58_rarest_first_refuted"
   ],
   "note": "False of the code: the comparison uses positions as piece numbers. What holds of the choice is in C50."
  },
  {
   "property": "C59",
   "status": "partial",
   "theorems": [
    "C59_disconnect_partial",
    "C59_stays_out",
    "C59_indices",
    "C59_other_connection_refuted"
   ],
   "note": "False when another connection has the same id and IP: Disconnect removes it from the registry. Everything else is proved."
  },
  {
   "property": "C60",
   "status": "partial",
   "theorems": [
    "C60_crashes_partial",
    "C60_have_crashes_refuted",
    "C60_request_crashes_refuted",
    "C60_short_frame_crashes_refuted"
   ],
   "note": "False of the code: a HAVE or REQUEST beyond the last piece, or a short frame, ends the process. Proved which events can cause a crash of the whole program, and that there are no others."
  },
  {
   "property": "C61",
   "status": "partial",
   "theorems": [
    "C61_error_when_unanswered_partial",
    "C61_nothing_refuted"
   ],
   "note": "False when every tier is empty: nil response and nil error."
  },
  {
   "property": "C62",
   "status": "proved",
   "theorems": [
    "C62_rejected",
    "C62_failure_readable"
   ],
   "note": ""
  },
  {
   "property": "C63",
   "status": "proved",
   "theorems": [
    "C63_torrents_independent"
   ],
   "note": ""
  },
  {
   "property": "C64",
   "status": "proved",
   "theorems": [
    "C64_piece_wait_nil_means_stored"
   ],
   "note": ""
  },
  {
   "property": "C65",
   "status": "proved",
   "theorems": [
    "C65_stored_data_is_never_lost_or_changed"
   ],
   "note": ""
  },
  {
   "property": "C66",
   "status": "proved",
   "theorems": [
    "C66_failure_reason_is_error"
   ],
   "note": ""
  },
  {
   "property": "C67",
   "status": "partial",
   "theorems": [
    "C67_left_refuted",
    "C67_left_after_start_partial",
    "C67_query_says"
   ],
   "note": "False of the code: 'left' is computed from the length of the single-file form, so multi-file torrents announce 0 or negative amounts; and the stored-bytes counter is not kept up to date (C43). Proved: the other parameters always, 'left' for single files after a start."
  },
  {
   "property": "C68",
   "status": "proved",
   "theorems": [
    "C68_useful_peers_not_forgotten"
   ],
   "note": "While the server was not stopped."
  },
  {
   "property": "C69",
   "status": "partial",
   "theorems": [
    "C69_send_stalls_server_refuted",
    "C69_server_lock_partial"
   ],
   "note": "False of the code: Connect sends the bitfield while it holds the server's lock. Proved: that the lock can be released once the writes going on have ended, unless a connection was refused (C52) or the server is being stopped."
  },
  {
   "property": "C70",
   "status": "partial",
   "theorems": [
    "C70_stop_closes_peers",
    "C70_stop_hangs_refuted"
   ],
   "note": "Closing is proved. Termination is false: a handler that queues its peer after the request loop ended keeps the lock for ever."
  },
  {
   "property": "C71",
   "status": "partial",
   "theorems": [
    "C71_announce_period_partial",
    "C71_long_interval_refuted"
   ],
   "note": "False for long and negative intervals (overflow); proved for up to 9223372036 seconds."
  },
  {
   "property": "C72",
   "status": "proved",
   "theorems": [
    "C72_announced_pieces_stored"
   ],
   "note": ""
  },
  {
   "property": "C73",
   "status": "proved",
   "theorems": [
    "C73_bitfield_first",
    "C73_on_the_wire"
   ],
   "note": "A peer left registered after its bitfield could not be sent (C52) may get other messages."
  },
  {
   "property": "C74",
   "status": "partial",
   "theorems": [
    "C74_refused_closed_refuted"
   ],
   "note": "False of the code: nothing closes a refused connection."
  },
  {
   "property": "C75",
   "status": "proved",
   "theorems": [
    "C75_uploads_are_genuine",
    "C75_on_the_wire",
    "node_calls",
    "node_answers",
    "node_writes",
    "node_messages"
   ],
   "note": "About the composition of the server and the storage models."
  },
  {
   "property": "C76",
   "status": "proved",
   "theorems": [
    "C76_announced_pieces_are_verified",
    "C76_on_the_wire"
   ],
   "note": ""
  },
  {
   "property": "C77",
   "status": "partial",
   "theorems": [
    "C77_blocked_after_failure_partial",
    "C77_blocked_sent_partial",
    "C77_wrong_peer_blocked_refuted"
   ],
   "note": "False of the code: the peer that was asked for the piece is blocked even if it sent the right bytes, and another one, which sent the wrong ones, is not. Proved that a peer is blocked only after it was asked for a piece, then sent all its blocks, and the piece failed its check."
  },
  {
   "property": "C78",
   "status": "partial",
   "theorems": [
    "C78_corrupt_piece_stays_missing",
    "C78_corrupt_piece_crashes"
   ],
   "note": "False of the code, in every execution: the piece is never stored by this process, and the next request for it panics (the future is delivered twice)."
  },
  {
   "property": "C79",
   "status": "partial",
   "theorems": [
    "C79_no_crash_partial",
    "C79_honest_peers_crash_refuted"
   ],
   "note": "False of the code: a late answer between a second request for the piece and its reset panics. Proved for executions without that race (and without failing file operations)."
  },
  {
   "property": "C80",
   "status": "partial",
   "theorems": [
    "C80_piece_waiter_returns_when_stored",
    "C80_piece_waiter_returns_when_ended",
    "C80_torrent_waiter_returns_refuted",
    "C80_torrent_waiter_returns_partial"
   ],
   "note": "Proved for pieces. False of the code for the torrent: if the last PutBlock fails after the content was moved in place, Wait does not return in this process. Proved when no PutBlock returned an I/O error."
  },
  {
   "property": "C81",
   "status": "proved",
   "theorems": [
    "C81_all_blocks_accepted_piece_stored",
    "C81_all_blocks_accepted_torrent_complete"
   ],
   "note": ""
  },
  {
   "property": "C82",
   "status": "proved",
   "theorems": [
    "C82_clients_find_each_other"
   ],
   "note": "For clients that announce from IPv4 addresses; with IPv6 clients see C34."
  },
  {
   "property": "C83",
   "status": "proved",
   "theorems": [
    "C83_no_error_of_its_own",
    "C83_can_be_started_again"
   ],
   "note": ""
  },
  {
   "property": "C84",
   "status": "proved",
   "theorems": [
    "C84_right_blocks_are_accepted",
    "C84_right_blocks_make_the_piece",
    "C84_right_blocks_make_the_torrent"
   ],
   "note": ""
  },
  {
   "property": "C85",
   "status": "proved",
   "theorems": [
    "C85_failed_message_ends",
    "C85_handled_message_goes_on",
    "C85_uploaded_block_goes_on"
   ],
   "note": ""
  },
  {
   "property": "C86",
   "status": "proved",
   "theorems": [
    "C86_closed_for_a_reason"
   ],
   "note": ""
  },
  {
   "property": "C87",
   "status": "proved",
   "theorems": [
    "C87_refused_for_a_reason",
    "C87_admitted",
    "C87_names"
   ],
   "note": ""
  },
  {
   "property": "C88",
   "status": "partial",
   "theorems": [
    "C88_told_partial",
    "C88_finishes",
    "C88_begins",
    "C88_told_refuted",
    "C88_late_piece_refuted"
   ],
   "note": "Proved: if no HAVE of the piece failed, every connected peer has been told once the announcing goroutine is done, it starts when the storage reports the piece complete, and it can always finish. Refuted in general: requestPiece returns at the first HAVE that cannot be sent (server.go:437-440), so one closing peer leaves the others untold; and a piece stored after its request failed is announced to nobody."
  },
  {
   "property": "C89",
   "status": "proved",
   "theorems": [
    "C89_failed_piece_blocks"
   ],
   "note": "The blocked peer is the one that was asked, which need not be the one that sent the data (see C77)."
  },
  {
   "property": "C90",
   "status": "partial",
   "theorems": [
    "C90_server_tables_partial",
    "C90_peer_tables",
    "C90_inflight_refuted"
   ],
   "note": "Proved for all tables but inflight, whose entries are deleted without the lock (server.go:402): C90_inflight_refuted reaches a state in which two goroutines are about to write to it. Two such writes at once make Go abort the program; the model does not, so the theorems about crashes (C60, C79) do not cover that abort."
  },
  {
   "property": "C91",
   "status": "proved",
   "theorems": [
    "C91_one_writer"
   ],
   "note": "The handshake is written before the peer is registered and is not part of the connection model."
  },
  {
   "property": "C92",
   "status": "proved",
   "theorems": [
    "C92_unchokes_all",
    "C92_stays",
    "C92_once"
   ],
   "note": ""
  },
  {
   "property": "C93",
   "status": "proved",
   "theorems": [
    "C93_stored_bytes_were_accepted",
    "C93_no_byte_accepted_twice",
    "C93_accepted_at_the_end"
   ],
   "note": "Without failing file operations where bytes must have come to the disk; no_waste: no ResetPiece for a piece with accepted blocks."
  },
  {
   "property": "C94",
   "status": "proved",
   "theorems": [
    "C94_counters_are_the_bytes",
    "C94_downloaded_between"
   ],
   "note": "Counting is atomic with the return of the call it follows. The counters each peer keeps for itself are never read."
  },
  {
   "property": "C95",
   "status": "proved",
   "theorems": [
    "C95_requests_wanted",
    "C95_asked_chosen"
   ],
   "note": "Pieces up to 2^63 - 16384 bytes."
  },
  {
   "property": "C96",
   "status": "proved",
   "theorems": [
    "C96_at_most_16",
    "C96_one_at_a_time"
   ],
   "note": "Pieces up to 2^63 - 16384 bytes."
  },
  {
   "property": "C97",
   "status": "proved",
   "theorems": [
    "C97_told_after_all_came",
    "C97_waited_until_all_came"
   ],
   "note": "Pieces up to 2^63 - 16384 bytes. Blocking: C77_blocked_sent_partial."
  },
  {
   "property": "C98",
   "status": "proved",
   "theorems": [
    "C98_sent_and_received",
    "C98_received_came",
    "C98_flags"
   ],
   "note": "Pieces up to 2^63 - 16384 bytes. REQUESTs: C95."
  },
  {
   "property": "C99",
   "status": "proved",
   "theorems": [
    "C99_kinds_of_message"
   ],
   "note": "Pieces up to 2^63 - 16384 bytes."
  }
 ]
}
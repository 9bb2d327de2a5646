{
 "claims": [
  {
   "property": "C01",
   "status": "proved",
   "theorems": [
    "C01_bitmap_change_frame"
   ],
   "note": "get/change against the list-of-bits view, including the panicking indices"
  },
  {
   "property": "C02",
   "status": "proved",
   "theorems": [
    "C02_bitmap_iter_lists_declared"
   ],
   "note": "for every map reachable from new by change/replace_data"
  },
  {
   "property": "C03",
   "status": "partial",
   "theorems": [
    "C03_bitmap_weight_partial",
    "C03_bitmap_weight_refuted",
    "C03_exact"
   ],
   "note": "full statement is false: padding bits of a replaced bitfield are counted; proved for histories that keep padding clear, and as count of stored bits in general"
  },
  {
   "property": "C04",
   "status": "proved",
   "theorems": [
    "C04_bitmap_new_and_replace"
   ],
   "note": ""
  },
  {
   "property": "C05",
   "status": "proved",
   "theorems": [
    "C05_id_bit_access"
   ],
   "note": ""
  },
  {
   "property": "C06",
   "status": "proved",
   "theorems": [
    "C06_id_prefix_order"
   ],
   "note": ""
  },
  {
   "property": "C07",
   "status": "proved",
   "theorems": [
    "C07_id_first_diff"
   ],
   "note": ""
  },
  {
   "property": "C08",
   "status": "proved",
   "theorems": [
    "C08_id_randomize"
   ],
   "note": "generator outcomes are universally quantified arguments"
  },
  {
   "property": "C09",
   "status": "proved",
   "theorems": [
    "C09_id_xor_metric",
    "C09_unidirectional"
   ],
   "note": ""
  },
  {
   "property": "C10",
   "status": "partial",
   "theorems": [
    "C10_id_order_partial",
    "C10_id_order_refuted",
    "C10_exact"
   ],
   "note": "full statement is false: cmp returns Equal at the first common one bit; it is exactly the order of bit lengths"
  },
  {
   "property": "C11",
   "status": "proved",
   "theorems": [
    "C11_id_weight"
   ],
   "note": ""
  },
  {
   "property": "C12",
   "status": "proved",
   "theorems": [
    "C12_compact_addresses"
   ],
   "note": ""
  },
  {
   "property": "C13",
   "status": "proved",
   "theorems": [
    "C13_message_round_trip"
   ],
   "note": "against an independent BEP-3 frame"
  },
  {
   "property": "C14",
   "status": "partial",
   "theorems": [
    "C14_parse_no_abort_partial",
    "C14_parse_no_abort_refuted"
   ],
   "note": "full statement is false: a piece message with declared length 1..8 aborts the task; exact characterisation proved"
  },
  {
   "property": "C15",
   "status": "proved",
   "theorems": [
    "C15_reassembly",
    "C15_prompt",
    "C15_reads"
   ],
   "note": "any read sizes, including zero"
  },
  {
   "property": "C16",
   "status": "partial",
   "theorems": [
    "C16_progress_partial",
    "C16_error_stops",
    "C16_until_error",
    "C16_room",
    "C16_progress_refuted",
    "C16_stops_at_eof_refuted",
    "C16_too_large_always"
   ],
   "note": "full statement is false: a message above 16512 bytes stalls the loop for ever and end of stream spins; progress proved for messages that fit; that every larger message stalls the loop is proved too"
  },
  {
   "property": "C17",
   "status": "proved",
   "theorems": [
    "C17_dispatch"
   ],
   "note": ""
  },
  {
   "property": "C18",
   "status": "partial",
   "theorems": [
    "C18_handshake_partial",
    "C18_handshake_info_hash_refuted"
   ],
   "note": "full statement is false: the info hash of the reply is not compared"
  },
  {
   "property": "C60",
   "status": "partial",
   "theorems": [
    "C60_unknown_skipped_partial",
    "C60_unknown_skipped_refuted",
    "C60_rest_lost_always",
    "C60_one_read_always"
   ],
   "note": "full statement is false: buffered data after an unknown message are dropped, always; what is lost is said exactly"
  },
  {
   "property": "C61",
   "status": "partial",
   "theorems": [
    "C61_handshake_segmentation_partial",
    "C61_handshake_segmentation_refuted"
   ],
   "note": "full statement is false: only one read is done; exact condition proved"
  },
  {
   "property": "C19",
   "status": "proved",
   "theorems": [
    "C19_bounded_in_flight"
   ],
   "note": "every reachable state, every hash-map order"
  },
  {
   "property": "C20",
   "status": "partial",
   "theorems": [
    "C20_size_and_position_partial",
    "C20_block_size",
    "C20_full_last_block_general",
    "C20_last_block_always",
    "C20_full_last_block_refuted",
    "C20_debug_abort_always",
    "C20_debug_abort_refuted"
   ],
   "note": "full statement is false: the last block of a piece whose length is a multiple of 16384 is refused (an empty one is accepted); debug builds abort on the first accepted block; proved for all other positions"
  },
  {
   "property": "C21",
   "status": "partial",
   "theorems": [
    "C21_multiple_always",
    "C21_completion_partial",
    "C21_no_abort_partial",
    "C21_no_abort_run_partial",
    "C21_multiple_refuted"
   ],
   "note": "full statement is false for piece lengths that are multiples of 16384; proved for all others (wrapping arithmetic); for those lengths the piece never completes, whatever arrives (C21_multiple_always)"
  },
  {
   "property": "C22",
   "status": "partial",
   "theorems": [
    "C22_take_partial",
    "C22_no_owner_always",
    "C22_no_owner_refuted",
    "C22_full_buffer_refuted",
    "C22_exact"
   ],
   "note": "full statement is false: aborts as the owner is never set; expired blocks are left out exactly when the requests held fill the buffer (16, 32, 64, ... of them), see C22_exact; proved with an owner"
  },
  {
   "property": "C23",
   "status": "proved",
   "theorems": [
    "C23_only_checked_forwarded",
    "C23_bad_piece_retried"
   ],
   "note": "whole downloader histories with interference on the shared set"
  },
  {
   "property": "C24",
   "status": "partial",
   "theorems": [
    "C24_exact",
    "C24_request_range_partial",
    "C24_last_block_always",
    "C24_last_block_refuted"
   ],
   "note": "full statement is false: the shorter last block is requested with full length"
  },
  {
   "property": "C62",
   "status": "partial",
   "theorems": [
    "C62_completion_partial",
    "C62_not_early_partial",
    "C62_never_completes_always",
    "C62_aborts_always",
    "C62_duplicate_block_refuted",
    "C21_no_abort_partial",
    "C21_no_abort_run_partial"
   ],
   "note": "statement is false: with one block missing any second copy aborts, and a piece with a block counted twice never completes; proved that no piece completes early and that first copies are harmless"
  },
  {
   "property": "C63",
   "status": "partial",
   "theorems": [
    "C63_single_block_pieces_partial",
    "C63_first_block_aborts_always",
    "C63_refuted",
    "C63_exact"
   ],
   "note": "statement is false: todo!() on every block that does not finish its piece; proved for one-block pieces"
  },
  {
   "property": "C64",
   "status": "partial",
   "theorems": [
    "C64_refused_requested_again_partial",
    "C64_requeued_always",
    "C64_other_piece_refuted"
   ],
   "note": "exactly which request goes back is proved; statement is false when another outstanding request has the same block number"
  },
  {
   "property": "C25",
   "status": "proved",
   "theorems": [
    "C25_batch",
    "C25_good_peers",
    "C25_learnt_available"
   ],
   "note": "all tables, batch sizes and returned peers"
  },
  {
   "property": "C26",
   "status": "partial",
   "theorems": [
    "C26_exact",
    "C26_status_exact",
    "C26_not_handed_out_again_partial",
    "C26_not_handed_out_again_refuted",
    "C26_refuted_by_insert",
    "C26_good_peers_in_use_refuted"
   ],
   "note": "full statement is false: hearing of a peer again resets it, and get_good_peers hands out peers in use; proved while nothing names the peer, and exactly, from its history alone, when a peer is in use (C26_status_exact) and whom a batch holds (C26_exact)"
  },
  {
   "property": "C27",
   "status": "proved",
   "theorems": [
    "C27_peers_never_lost",
    "C27_total"
   ],
   "note": "whole histories, any hash map order"
  },
  {
   "property": "C28",
   "status": "partial",
   "theorems": [
    "C28_enough_answer_partial",
    "C28_marks_all_always",
    "C28_enough_no_side_effect_refuted",
    "C26_status_exact"
   ],
   "note": "answer and set of peers proved; statuses are changed, so no-side-effect is false"
  },
  {
   "property": "C29",
   "status": "proved",
   "theorems": [
    "C29_limits",
    "C29_running"
   ],
   "note": "whole histories, any interleaving with users of the shared peer table, any hash order"
  },
  {
   "property": "C30",
   "status": "partial",
   "theorems": [
    "C30_exact_partial",
    "C30_account",
    "C30_forgotten",
    "C30_never_repaired_always",
    "C30_never_too_low",
    "C30_running",
    "C30_have_recorded",
    "C30_bitfield_recorded",
    "C30_exact_refuted"
   ],
   "note": "full statement is false (re-announced active peer); exact in histories without that; in all histories the count is the holders plus the announcements forgotten when an active peer was connected to again, and never gets right again"
  },
  {
   "property": "C31",
   "status": "proved",
   "theorems": [
    "C31_selection_sound",
    "C31_commands_sound",
    "C31_history",
    "C31_last_word",
    "C31_told",
    "C31_waiting"
   ],
   "note": "all states and orders; C31_history reads choking and holding off the history of what the peer said"
  },
  {
   "property": "C32",
   "status": "partial",
   "theorems": [
    "C32_finds_first_partial",
    "C32_selected",
    "C32_none_selected",
    "C32_starvation_refuted"
   ],
   "note": "full statement is false: only the first wanted piece is considered; exact characterisation proved"
  },
  {
   "property": "C33",
   "status": "partial",
   "theorems": [
    "C33_survives_partial",
    "C33_survives_calm_partial",
    "C33_request_always",
    "C33_cancel_always",
    "C33_have_always",
    "C33_have_padding_always",
    "C33_finished_piece_always",
    "C33_remote_abort_refuted",
    "C33_exact"
   ],
   "note": "full statement is false: request, cancel and out-of-range have abort; C33_exact says exactly when the manager aborts"
  },
  {
   "property": "C65",
   "status": "partial",
   "theorems": [
    "C65_one_piece_always",
    "C65_told",
    "C65_exact",
    "C65_equal",
    "C65_count_always",
    "C65_repeated_always",
    "C65_spread_partial",
    "C65_distinct_assignments_refuted",
    "C65_again_next_tick_refuted"
   ],
   "note": "statement is false: one tick sends the same command nine times; proved that a round always names a single piece, exactly who is told in a round, in which order and how often (C65_told), exactly when nobody is told twice (C65_exact), that it uses up all free places if somebody stays able to take it (so peers are told twice whenever there are fewer of them than places), and that nobody is told twice if all who can take it work on three others"
  },
  {
   "property": "C66",
   "status": "partial",
   "theorems": [
    "C66_new_peers_contacted_partial",
    "C66_exact",
    "C66_contacted_once_always",
    "C66_running",
    "C66_retry_refuted"
   ],
   "note": "full statement is false: connection entries are never removed; proved for peers never contacted before, and for no others (C66_exact)"
  },
  {
   "property": "C67",
   "status": "partial",
   "theorems": [
    "C67_marked_partial",
    "C67_worker_partial",
    "C67_exact",
    "C67_working",
    "C67_slots_never_freed_always",
    "C67_active_piece_has_worker_refuted"
   ],
   "note": "full statement is false: slots of disconnected peers are never freed. Proved: active pieces are exactly those somebody was ever told to fetch, who works on one was told to (C67_exact), and if nobody announces active peers anew, an active piece without a worker is one all whose peers were reported gone"
  },
  {
   "property": "C34",
   "status": "proved",
   "theorems": [
    "C34_chunks",
    "C34_covers"
   ],
   "note": ""
  },
  {
   "property": "C35",
   "status": "partial",
   "theorems": [
    "C35_single_partial",
    "C35_read",
    "C35_single_refuted",
    "C35_last_piece_always",
    "C35_exact"
   ],
   "note": "full statement is false when the length is a multiple of the piece length: the last piece is silently not written, in every such case; proved otherwise, for every block size and write order, over any old contents"
  },
  {
   "property": "C36",
   "status": "partial",
   "theorems": [
    "C36_multi_partial",
    "C36_read_partial",
    "C36_multi_refuted",
    "C36_boundary_refuted",
    "C36_trailing_refuted",
    "C36_edge_always",
    "C36_exact"
   ],
   "note": "full statement is false with an empty file at a block boundary; proved otherwise for distinct paths; C36_exact says this is the only exception"
  },
  {
   "property": "C37",
   "status": "proved",
   "theorems": [
    "C37_bounded",
    "C37_accessed",
    "C37_no_eviction",
    "C37_evicts_stalest",
    "C37_failed"
   ],
   "note": "all histories and hash map orders"
  },
  {
   "property": "C38",
   "status": "partial",
   "theorems": [
    "C38_list",
    "C38_order_partial",
    "C38_created_partial",
    "C38_created_where",
    "C38_where",
    "C38_inside_exact",
    "C38_exact",
    "C38_escape_refuted",
    "C38_dotdot_refuted"
   ],
   "note": "full statement is false: names are not checked; proved for ordinary names on a model of path resolution; for all names: where every directory and file lies after a successful set-up (C38_created_where, C38_where), and that it lies in the torrent's directory exactly if no path ever leads above it (C38_exact, for paths that do not contain the directory's own name)"
  },
  {
   "property": "C68",
   "status": "partial",
   "theorems": [
    "C68_single",
    "C68_multi_beyond",
    "C68_multi_refuted",
    "C68_multi_clipped_always",
    "C68_multi_data_always"
   ],
   "note": "proved for single-file torrents; false for multi-file ones, which return stale buffer contents; what is returned is said exactly"
  },
  {
   "property": "C69",
   "status": "partial",
   "theorems": [
    "C69_exact",
    "C69_resume_refuted",
    "C69_witness_refuted"
   ],
   "note": "statement is false: the second start always panics; setting up works exactly if the base directory is there without a directory of that name (C69_exact)"
  },
  {
   "property": "C70",
   "status": "proved",
   "theorems": [
    "C70_gone_returned"
   ],
   "note": ""
  },
  {
   "property": "C44",
   "status": "proved",
   "theorems": [
    "C44_total",
    "C44_total_restarts",
    "C44_structure",
    "C44_contains"
   ],
   "note": "every history of touches and restarts from the stored table, by an inductive invariant"
  },
  {
   "property": "C45",
   "status": "proved",
   "theorems": [
    "C45_no_good_evicted",
    "C45_good_kept"
   ],
   "note": "every reachable table, time, id and address"
  },
  {
   "property": "C46",
   "status": "partial",
   "theorems": [
    "C46_admitted_partial",
    "C46_first_eight",
    "C46_own_id",
    "C46_admitted_refuted"
   ],
   "note": "full statement is false: off-by-one in the range check keeps out the sibling half; exact admission condition proved"
  },
  {
   "property": "C47",
   "status": "partial",
   "theorems": [
    "C47_exact",
    "C47_closest_partial",
    "C47_exact_stale_refuted",
    "C47_too_many_refuted",
    "C47_closer_missed_refuted",
    "C47_order_refuted"
   ],
   "note": "full statement is false: too many nodes, closer ones missed, wrong order, stale exact match; proved what the answer does contain"
  },
  {
   "property": "C48",
   "status": "proved",
   "theorems": [
    "C48_store_load",
    "C48_reachable_storable",
    "C48_restart"
   ],
   "note": "every table, every truncation point; the bincode layout is modelled"
  },
  {
   "property": "C49",
   "status": "proved",
   "theorems": [
    "C49_refresh_targets"
   ],
   "note": "every reachable table and random draw"
  },
  {
   "property": "C71",
   "status": "partial",
   "theorems": [
    "C71_addr_partial",
    "C71_addr_refuted",
    "C71_exact",
    "C71_moved_always"
   ],
   "note": "full statement is false: a known node keeps its first address; proved that the address is one the node was heard from"
  },
  {
   "property": "C72",
   "status": "partial",
   "theorems": [
    "C72_loaded_shape_partial",
    "C72_damaged_refuted",
    "C48_store_load",
    "C72_accepts_exact",
    "C72_aborts_exact",
    "C72_lookup_exact",
    "C72_refresh_exact",
    "C72_usable_partial",
    "C72_usable_exact",
    "C72_deep_refuted"
   ],
   "note": "statement is false: a wrong id length aborts, and a table without buckets or with a wrong depth is accepted but aborts when used. Proved: exactly which files are accepted, which abort the program (the rest is discarded), and which accepted tables can be used for ever without abort"
  },
  {
   "property": "C39",
   "status": "proved",
   "theorems": [
    "C39_decimal",
    "C39_round_trip",
    "C39_canonical",
    "C39_unique",
    "C39_refused"
   ],
   "note": "every value, nesting and trailing bytes; the grammar of bendy is modelled (trusted)"
  },
  {
   "property": "C40",
   "status": "partial",
   "theorems": [
    "C40_round_trip_partial",
    "C40_exact",
    "C40_nodes",
    "C40_refuted"
   ],
   "note": "full statement is false: an announce answer reads as a pong and a one-node list as an exact hit; everything else comes back, up to last-seen times"
  },
  {
   "property": "C41",
   "status": "proved",
   "theorems": [
    "C41_delivery",
    "C41_progress",
    "C41_only_responses",
    "C41_at_most_once",
    "C41_counts"
   ],
   "note": "every history of queries, replies and received messages"
  },
  {
   "property": "C42",
   "status": "proved",
   "theorems": [
    "C42_accepted",
    "C42_rejected",
    "C42_other_ip",
    "C42_wire"
   ],
   "note": "every hash function, secret and history; also end to end over the bytes exchanged"
  },
  {
   "property": "C43",
   "status": "partial",
   "theorems": [
    "C43_no_abort_partial",
    "C43_refuted",
    "C43_exact"
   ],
   "note": "full statement is false: an identifier of another length aborts the task; proved for all datagrams without one, while the channels' other ends exist; C43_exact says which datagrams abort it and that no others do"
  },
  {
   "property": "C73",
   "status": "proved",
   "theorems": [
    "C73_bep5",
    "C73_sent"
   ],
   "note": "every message the client can build"
  },
  {
   "property": "C74",
   "status": "partial",
   "theorems": [
    "C74_own_bytes_partial",
    "C74_refuted",
    "C74_buffer_exact",
    "C74_first_always",
    "C74_exact"
   ],
   "note": "full statement is false: the whole receive buffer is decoded, so a short datagram is completed by the previous one; proved for datagrams that are complete values, with the exact contents of the buffer and the exact datagrams that depend on it"
  },
  {
   "property": "C75",
   "status": "partial",
   "theorems": [
    "C75_asked_partial",
    "C75_refuted",
    "C75_exact",
    "C75_anyone_always"
   ],
   "note": "full statement is false: the sender's address is not compared; id, kind and requester are"
  },
  {
   "property": "C76",
   "status": "partial",
   "theorems": [
    "C76_reply_delivered_partial",
    "C76_refuted",
    "C76_token_refuted",
    "C76_exact",
    "C76_kind_exact"
   ],
   "note": "full statement is false for announce answers and for find_node answers with a token; proved for the others over the bytes"
  },
  {
   "property": "C77",
   "status": "partial",
   "theorems": [
    "C77_refuted",
    "C77_unanswered_partial",
    "C77_exact",
    "C77_count_exact"
   ],
   "note": "statement is false: entries are removed only by a matching answer; proved that the remembered queries are exactly the unanswered ones, and their number"
  },
  {
   "property": "C50",
   "status": "partial",
   "theorems": [
    "C50_foreign_partial",
    "C50_own_partial",
    "C50_own_exact",
    "C50_too_many_refuted",
    "C50_unreachable_refuted"
   ],
   "note": "full statement is false: at most 216 peers are returned, and announced peers we cannot connect to are left out; exact content of the answer proved otherwise"
  },
  {
   "property": "C78",
   "status": "partial",
   "theorems": [
    "C78_fits_partial",
    "C78_fits_refuted",
    "C78_values_size",
    "C78_exact",
    "C78_crowd_always"
   ],
   "note": "full statement is false: 216 peers need more than 1700 bytes. Proved for answers with nodes and with up to 140 peers; the exact size of every answer with peers; with a two-byte transaction id the answer fits if and only if at most 151 peers have announced themselves"
  },
  {
   "property": "C79",
   "status": "proved",
   "theorems": [
    "C79_only_answering_nodes",
    "C79_named_nodes_pinged"
   ],
   "note": "every history of the DHT task, interleaved with other users of the peer table"
  },
  {
   "property": "C80",
   "status": "partial",
   "theorems": [
    "C80_lookup_harmless_partial",
    "C80_starvation",
    "C80_lookup_harmless_refuted",
    "C80_own_always",
    "C80_exact"
   ],
   "note": "full statement is false: one lookup of our info hash marks every usable peer as active, so the torrent manager gets no more peers; proved for other hashes. Exactly which peers a lookup marks, and exactly when it marks none, is proved"
  },
  {
   "property": "C51",
   "status": "partial",
   "theorems": [
    "C51_trim_partial",
    "C51_announce",
    "C51_queries",
    "C51_once_per_round",
    "C51_bounded",
    "C51_ignored",
    "C51_trim_refuted"
   ],
   "note": "order among nodes of the same kind holds only up to a factor of two in distance, because ids are compared by bit length only (refuted in full); everything else proved for all histories"
  },
  {
   "property": "C81",
   "status": "proved",
   "theorems": [
    "C81_learnt",
    "C81_only_asked"
   ],
   "note": "every history, any hash map order"
  },
  {
   "property": "C82",
   "status": "proved",
   "theorems": [
    "C82_find_node",
    "C82_get_peers",
    "C82_refresh",
    "C82_port"
   ],
   "note": "distance up to a factor of two, as in C47"
  },
  {
   "property": "C83",
   "status": "proved",
   "theorems": [
    "C83_search_started",
    "C83_once_in_all"
   ],
   "note": "C83_once_in_all: at most one search in any run of the whole DHT, even if it ends, and only with a good node at hand; C83_search_started: with the clock standing still within a turn for the liveness part"
  },
  {
   "property": "C52",
   "status": "proved",
   "theorems": [
    "C52_url_safe",
    "C52_decodes_back",
    "C52_different_urls"
   ],
   "note": "every byte string"
  },
  {
   "property": "C53",
   "status": "partial",
   "theorems": [
    "C53_parameters_partial",
    "C53_url_refuted",
    "C53_tracker_id_refuted",
    "C53_exact"
   ],
   "note": "full statement is false: an announce URL that already has a query, and a tracker id with reserved characters, break the parameters; proved for all others, and that these are the only exceptions"
  },
  {
   "property": "C54",
   "status": "proved",
   "theorems": [
    "C54_opening",
    "C54_every_request",
    "C54_started",
    "C54_stopped_last",
    "C54_peers",
    "C54_completions",
    "C54_no_crash"
   ],
   "note": "every history of answers, failures, completions, elapsed times and shutdown"
  },
  {
   "property": "C55",
   "status": "proved",
   "theorems": [
    "C55_accepted",
    "C55_peers",
    "C55_missing",
    "C55_never_panics"
   ],
   "note": "every body; exact condition for acceptance"
  },
  {
   "property": "C84",
   "status": "partial",
   "theorems": [
    "C84_exact",
    "C84_opens_exact",
    "C54_shutdown",
    "C54_stopped_refuted",
    "C54_opens_refuted"
   ],
   "note": "full statement is false: a shutdown while an announce is in flight or between retries sends nothing, and a torrent of 2^64 bytes or more crashes the session; said of the events alone when the tracker is told (C84_exact), and exactly which sessions open (C84_opens_exact)"
  },
  {
   "property": "C56",
   "status": "proved",
   "theorems": [
    "C56_says",
    "C56_accepted",
    "C56_info_hash",
    "C56_pieces_refused",
    "C56_trackerless_refused",
    "C56_never_panics",
    "C56_length"
   ],
   "note": "every byte string; exact condition for acceptance"
  },
  {
   "property": "C57",
   "status": "proved",
   "theorems": [
    "C57_received",
    "C57_no_panic",
    "C57_once",
    "C57_waits",
    "C57_always",
    "C57_late_copy"
   ],
   "note": "every interleaving; a copy made after the signal never hears of it (C57_late_copy)"
  },
  {
   "property": "C59",
   "status": "proved",
   "theorems": [
    "C59_nth",
    "C59_no_panic",
    "C59_panics",
    "C59_growing"
   ],
   "note": "any formula over binary64 (stdlib SpecFloat), any number of ticks"
  },
  {
   "property": "C85",
   "status": "partial",
   "theorems": [
    "C85_quiet_partial",
    "C85_exact",
    "C85_starved",
    "C85_refresh_refuted"
   ],
   "note": "full statement is false: every message restarts the wait, so steady traffic postpones the refresh for ever; proved that a quiet time longer than the maximum leads to a refresh, and exactly which turns refresh (C85_exact)"
  },
  {
   "property": "C86",
   "status": "partial",
   "theorems": [
    "C86_pieces_partial",
    "C86_unchecked_always",
    "C56_consistent_refuted",
    "C56_piece_length_refuted"
   ],
   "note": "full statement is false: any combination of total length, piece length and number of hashes is accepted; proved that there is at least one hash and that all have 20 bytes; what else is checked is C56"
  },
  {
   "property": "C58",
   "status": "proved",
   "theorems": [
    "C58_choke_respected",
    "C58_waiter_stuck",
    "C58_owner_set_refuted",
    "C58_waiter_exact"
   ],
   "note": "holds of the code as it is only because no block is ever requested (C87); with the missing set_owner_peer call it would be false (C58_owner_set_refuted), and the waiter that exists for it never hears of an unchoke (C58_waiter_stuck)"
  },
  {
   "property": "C87",
   "status": "partial",
   "theorems": [
    "C87_requested_refuted",
    "C87_nothing_requested",
    "C87_turn_fatal",
    "C87_exact",
    "C87_turn",
    "C87_poison_spreads"
   ],
   "note": "full statement is false, and nothing of it holds: set_owner_peer is never called, so the first turn with an assigned piece panics inside the mutex; proved for all histories that nothing is requested or finished, and exactly which turns panic inside the mutex (C87_exact)"
  },
  {
   "property": "C88",
   "status": "partial",
   "theorems": [
    "C88_interest_refuted",
    "C88_silent"
   ],
   "note": "full statement is false: nobody calls `interested`; proved for all histories that no message at all is sent after the handshake"
  },
  {
   "property": "C89",
   "status": "partial",
   "theorems": [
    "C89_forever",
    "C89_any_capacity",
    "C89_no_deadlock_refuted",
    "C89_search_lock_refuted",
    "C89_wait_ends_partial",
    "C89_wait_resolves",
    "C89_search_forever"
   ],
   "note": "full statement is false: from any table a schedule leads to a state in which both tasks wait for each other for ever, for any channel capacities; a shutdown is then never honoured. Proved: such a state is permanent, and any other wait of the DHT task ends by the tasks' own steps, unless a second cycle has come, of the DHT task, the socket task and the peer search; that one is shown to be permanent and to happen with the capacities used (C89_search_lock_refuted)"
  },
  {
   "property": "C90",
   "status": "partial",
   "theorems": [
    "C90_goes_on_partial",
    "C90_exact",
    "C90_blocked_forever",
    "C90_held_up",
    "C90_search_independent_refuted"
   ],
   "note": "full statement is false: 65 late responses fill the search's channel while it pauses, and nothing is received or sent until its next round (C90_held_up: for all such states and continuations). Proved: from every state the next datagram can be taken after steps of the socket and DHT tasks alone unless exactly this, the cycle of C89 or the end of a task has come (C90_goes_on_partial); with the steps of the search as well, unless a task has ended or one of two cycles has come, from which nothing is ever received or sent (C90_exact)"
  },
  {
   "property": "C92",
   "status": "proved",
   "theorems": [
    "C92_matched"
   ],
   "note": "all runs of the whole DHT, all capacities"
  },
  {
   "property": "C91",
   "status": "proved",
   "theorems": [
    "C91_at_most_once",
    "C91_ping_answered"
   ],
   "note": "all runs of the whole DHT, all capacities"
  },
  {
   "property": "C93",
   "status": "partial",
   "theorems": [
    "C93_shutdown_saves",
    "C93_shutdown_taken",
    "C93_other_end_loses",
    "C93_kept_refuted"
   ],
   "note": "full statement is false: only the shutdown branch stores the table; any other end (socket error, no peer task left, failed send) loses it for good"
  },
  {
   "property": "C94",
   "status": "partial",
   "theorems": [
    "C94_cascade",
    "C94_for_good",
    "C94_survives_refuted",
    "C94_survives_partial",
    "C94_exact",
    "C94_blame"
   ],
   "note": "full statement is false: a cancel message makes the manager reach todo!(), and from every state in which the manager lives and the DHT waits for its next event the client's own steps then lead to the end of all downloading and of the DHT, for good and without the routing table being stored. Proved (C94_survives_partial): the manager outlives every run without such a message, without a finished piece, without a downloader panicking inside the mutex and with fewer than 65535 have/bitfield messages"
  },
  {
   "property": "C95",
   "status": "partial",
   "theorems": [
    "C95_exit_partial",
    "C95_exit_or_standstill",
    "C95_standstill_stays",
    "C95_exact",
    "C95_exit_refuted",
    "C95_end_orderly",
    "C95_nothing_early"
   ],
   "note": "full statement is false: a signal during the DHT deadlock (C89) is never honoured. Proved: from every state after the signal the client's own steps lead to its end or to one of the two standstills of C89, and from neither of these it can ever end (C95_exact)"
  },
  {
   "property": "C96",
   "status": "proved",
   "theorems": [
    "C96_once",
    "C96_origin"
   ],
   "note": "all runs of the whole client"
  },
  {
   "property": "C97",
   "status": "proved",
   "theorems": [
    "C97_at_most_ten"
   ],
   "note": "all runs of the whole client; ten are reached (C97_example)"
  },
  {
   "property": "C98",
   "status": "partial",
   "theorems": [
    "C98_makes_room_refuted",
    "C98_ten_in_a_lifetime",
    "C98_for_good",
    "C98_unreachable_partial"
   ],
   "note": "full statement is false: a connection that ends after the handshake is never reported, so at most ten handshakes succeed in the client's whole life and after the tenth it connects to nobody ever again. Proved: a failed attempt does make room for a peer never tried"
  },
  {
   "property": "C99",
   "status": "partial",
   "theorems": [
    "C99_waiting_connected_partial",
    "C99_tracker_connected_partial",
    "C99_exact",
    "C99_named_connected_refuted"
   ],
   "note": "full statement is false: a DHT node asking for peers of the torrent between the answer and the look marks the peer as in use (C80), and it is not connected to. Proved: if the peer is still waiting when the manager looks, it is connected to; and exactly whom a look connects to (C99_exact)"
  },
  {
   "property": "C100",
   "status": "partial",
   "theorems": [
    "C100_nothing_always",
    "C100_seeded_refuted"
   ],
   "note": "full statement is false, in every run: no piece is ever held, nothing is ever requested from a peer, no finished piece ever reaches the manager (C87 for the whole of manager and downloaders)"
  },
  {
   "property": "C101",
   "status": "partial",
   "theorems": [
    "C101_honest_refuted",
    "C101_one_seeder_refuted",
    "C101_causes",
    "C101_exact",
    "C101_poison_exact",
    "C101_poisoned_turn",
    "C101_turn_poisons",
    "C101_seeders_harmless_partial",
    "C101_poison_source",
    "C101_turn_fatal",
    "C101_no_new_piece",
    "C101_next_start_fatal",
    "C101_downloaders_end"
   ],
   "note": "full statement is false: two seeders that send a bitfield and an unchoke end the manager, even one does with the right timing. Proved: the manager ends exactly by a message it cannot take (which ones: stated of its tables alone) or in starting a piece after a downloader panicked (C101_exact); exactly which turns of a downloader poison the lock (C101_poison_exact); after that no piece is ever started again; once the manager has ended every downloader can end at once and stays ended"
  },
  {
   "property": "C102",
   "status": "proved",
   "theorems": [
    "C102_tick_ends",
    "C102_bounded",
    "C102_never_stuck"
   ],
   "note": "all reachable states of manager and downloaders; the bound holds for every schedule"
  },
  {
   "property": "C103",
   "status": "partial",
   "theorems": [
    "C103_left_partial",
    "C103_constant",
    "C103_from_file",
    "C103_left_refuted",
    "C103_progress_refuted"
   ],
   "note": "full statement is false twice: a short last piece is counted as a full one, and the counter of downloaded pieces is never increased nor `completed` ever sent, so trackers hear of no progress whatever happens (C103_constant: all runs of the client). Proved: what the session computes from a right counter is never too little and less than one piece too much, and exact once the last piece is there or the lengths divide"
  },
  {
   "property": "C104",
   "status": "partial",
   "theorems": [
    "C104_trackers",
    "C104_nothing_started",
    "C104_all_trackers_refuted"
   ],
   "note": "full statement is false: UDP trackers are read and never contacted. Proved from the bytes of the file for all runs: the rest of the statement, and that every HTTP tracker is asked at the start (torrents below 2^64 bytes, C84)"
  },
  {
   "property": "C105",
   "status": "proved",
   "theorems": [
    "C105_queries",
    "C105_strangers"
   ],
   "note": "all runs of the whole DHT, all capacities; tables need not be well formed"
  },
  {
   "property": "C106",
   "status": "partial",
   "theorems": [
    "C106_fresh_refuted",
    "C106_given_partial",
    "C51_announce"
   ],
   "note": "full statement is false: a node that answered once is announced to with that token in every later round, also if it never answers again. Proved: the node did give the token in an earlier answer, and it is the last one that the search heard from it (C51_announce)"
  },
  {
   "property": "C107",
   "status": "partial",
   "theorems": [
    "C107_rate_partial",
    "C107_pause_refuted",
    "C107_flood_refuted",
    "C54_every_request"
   ],
   "note": "full statement is false: `min interval` is decoded and ignored, and with interval 0 the session asks without any pause. Proved: with intervals of at least k seconds, at most one request per k seconds after the first, apart from completions, the last, and failed requests, which are repeated after 64 seconds"
  },
  {
   "property": "C108",
   "status": "partial",
   "theorems": [
    "C108_refill_partial",
    "C108_only",
    "C108_refuted"
   ],
   "note": "full statement is false of the program as it stands: the shared pieces have no owner and the wake-up panics (C87). Proved for every wake-up that does not panic, with any interference by other connections"
  },
  {
   "property": "C109",
   "status": "partial",
   "theorems": [
    "C109_repeat_partial",
    "C109_gives_up_always",
    "C109_refuted"
   ],
   "note": "full statement is false: every repetition takes up another of 16 places, after which it is never repeated. Proved: it is repeated while fewer than 16 requests are open; a block nobody answers is requested at most 16 times in all"
  },
  {
   "property": "C110",
   "status": "partial",
   "theorems": [
    "C110_open_partial",
    "C110_exact",
    "C110_count",
    "C110_silent",
    "C110_refuted"
   ],
   "note": "full statement is false: all blocks of an assigned piece are requested at once, whatever their number. Proved: at most ten pieces' worth per search for blocks; exactly which requests are open, and that open and answered ones are those sent"
  },
  {
   "property": "C111",
   "status": "partial",
   "theorems": [
    "C111_written_partial",
    "C111_finishes",
    "C111_torn",
    "C111_written_refuted"
   ],
   "note": "full statement is false: after a failed write the rest of the message is dropped and the next one follows, so a peer takes `have` and `interested` for `choke`. Proved when no write fails; in general each message is written from its beginning, in order"
  },
  {
   "property": "C112",
   "status": "partial",
   "theorems": [
    "C112_heard_partial",
    "C112_refused",
    "C112_reported",
    "C112_heard_refuted"
   ],
   "note": "full statement is false: a handshake that arrives in two reads is refused (C61). Proved for handshakes that arrive in one"
  },
  {
   "property": "C113",
   "status": "partial",
   "theorems": [
    "C113_shutdown_partial",
    "C113_deaf_always",
    "C113_shutdown_refuted"
   ],
   "note": "full statement is false: the signal is not looked at before the handshake is done, and a silent peer keeps the task there for ever. Proved: it ends a task whose handshake is done"
  },
  {
   "property": "C114",
   "status": "partial",
   "theorems": [
    "C114_sound_partial",
    "C114_full_partial",
    "C114_short_always",
    "C114_index_always",
    "C114_exact",
    "C114_agrees_exact",
    "C114_refuted"
   ],
   "note": "full statement is false: a shorter last piece, and any piece if the piece length is not a multiple of 16384, is never accepted; an index outside the torrent aborts. Proved: what is accepted has the checksum and consists of full blocks; full pieces of torrents with a multiple are judged by their checksum; the answer in each case (C114_exact), and exactly which genuine pieces are accepted (C114_agrees_exact). The function is not called by the program"
  },
  {
   "property": "C115",
   "status": "partial",
   "theorems": [
    "C115_kinds_partial",
    "C115_exact",
    "C115_kinds_refuted"
   ],
   "note": "full statement is false: a node never heard from, and one heard from exactly 15 minutes ago, is none of the three; the sum with those is proved, and exactly when the three make up the bucket. The counting functions are not called by the program"
  },
  {
   "property": "C116",
   "status": "partial",
   "theorems": [
    "C116_only_partial",
    "C116_left_open_always",
    "C116_half_open_always",
    "C116_refuted"
   ],
   "note": "full statement is false: the ports are asked for without limit of time and never given back, not even the first one if the second is refused. Proved: nothing else is opened or closed"
  },
  {
   "property": "C117",
   "status": "partial",
   "theorems": [
    "C117_length_always",
    "C117_whole_partial",
    "C117_multiple_always",
    "C117_last_piece_always",
    "C117_forwarded_always",
    "C117_collision_always",
    "C117_whole_refuted"
   ],
   "note": "full statement is false: a piece whose length is a multiple of 16384 is reported complete with its last block empty, and a shorter last piece of the torrent with data of a full one. Proved: the exact length in all cases, right for every other piece; for multiples nothing a downloader passes on has the checksum of a real piece unless SHA-1 collides"
  },
  {
   "property": "C118",
   "status": "partial",
   "theorems": [
    "C118_exact",
    "C118_entry",
    "C118_sizes",
    "C118_depth",
    "C118_name_always",
    "C118_type_always",
    "C118_any_name_always",
    "C118_proper_refuted"
   ],
   "note": "full statement is false: type and name are ignored, the shape of the arguments decides (a message of type r named ping with a target is treated as find_node; an announcement with a port that is too big as get_peers). Proved: exactly which datagrams are read as which message, and the sizes"
  },
  {
   "property": "C119",
   "status": "partial",
   "theorems": [
    "C119_read_back_partial",
    "C119_multi_partial",
    "C119_single",
    "C119_stored_few",
    "C119_stored_partial",
    "C119_read_once",
    "C119_exact",
    "C119_finishes",
    "C119_dropped",
    "C119_missing_always",
    "C119_read_back_refuted",
    "C119_stored_refuted"
   ],
   "note": "full statement is false: a handle evicted from the cache is dropped with its last write unfinished, and a new handle does not wait for it, so a block just written can be missing (and of two writes to the same byte the older can win). Proved: with at most 16 files every read returns what was written (write_piece and read_block included, single-file torrents always); with any number everything is stored in the end when no byte is written twice, and exactly when a read is stale until then; in any case a read sees all writes to the file but those of dropped handles (C119_exact)"
  },
  {
   "property": "C120",
   "status": "partial",
   "theorems": [
    "C120_life_partial",
    "C120_exact",
    "C120_read",
    "C120_room_refuted",
    "C120_handshake",
    "C120_words"
   ],
   "note": "full statement is false for the function deserialize_pieces_field by itself: given a vector whose spare room is not a multiple of 20 bytes the memory is given back with a wrong size. Proved: exactly that condition (C120_exact), that the identifiers are read right whatever the room, and soundness as the program calls it (no spare room: bendy copies a slice); the handshake and the words of an id in full"
  },
  {
   "property": "C121",
   "status": "proved",
   "theorems": [
    "C121_shows",
    "C121_distinct"
   ],
   "note": "all identifiers"
  },
  {
   "property": "C122",
   "status": "partial",
   "theorems": [
    "C122_exact",
    "C122_reported",
    "C122_near_partial",
    "C122_far_refuted",
    "C122_missed_refuted"
   ],
   "note": "full statement is false: only positions divisible by five are looked at, so five zeros elsewhere are missed and the position reported can be arbitrarily far behind. Proved: exactly which position is reported, that it is right within four bytes if there are nine zeros or they start at a multiple of five, and when the report is made"
  },
  {
   "property": "C123",
   "status": "partial",
   "theorems": [
    "C123_nothing_lost_always",
    "C123_restored_partial",
    "C123_exact",
    "C123_restored_exact",
    "C123_same_set_up",
    "C123_left_behind_refuted"
   ],
   "note": "full statement is false: with a name that leads out of the torrent's directory (../e) a directory created there stays. Proved: for all names and failures nothing that was there is removed and nothing of the torrent's own directory stays; with ordinary names the tree is exactly as before; for all names exactly what is left behind, and when nothing is"
  },
  {
   "property": "C124",
   "status": "proved",
   "theorems": [
    "C124_least_busy",
    "C124_at_most_four",
    "C124_running"
   ],
   "note": ""
  },
  {
   "property": "C125",
   "status": "proved",
   "theorems": [
    "C125_own_id"
   ],
   "note": "network of any number of clients and strangers (NetModel.v)"
  },
  {
   "property": "C126",
   "status": "proved",
   "theorems": [
    "C126_own_torrent"
   ],
   "note": "the torrent of the one who remembers is left aside: its peers also come from trackers"
  },
  {
   "property": "C127",
   "status": "partial",
   "theorems": [
    "C127_strangers_only_partial",
    "C127_among_clients_partial",
    "C127_own_address_refuted"
   ],
   "note": "full statement is false: a stranger that is asked can answer with the id of a client and is filed under it with its own address. Proved: no client is ever filed under the id of another, and without strangers every entry is a client with its own id and address"
  },
  {
   "property": "C128",
   "status": "proved",
   "theorems": [
    "C128_exact",
    "C128_next"
   ],
   "note": "the program never calls it (pending_pieces.rs:128-138)"
  },
  {
   "property": "C129",
   "status": "proved",
   "theorems": [
    "C129_harmless",
    "C129_causes"
   ],
   "note": "clients have identifiers of 20 bytes and random generators that give what is asked for"
  },
  {
   "property": "C130",
   "status": "proved",
   "theorems": [
    "C130_goes_on",
    "C130_causes",
    "C130_fatal"
   ],
   "note": "tables as the program can make them, no peer twice in the peer table, ports of 16 bits, random generators that give what is asked for"
  },
  {
   "property": "C131",
   "status": "proved",
   "theorems": [
    "C131_first",
    "C131_all"
   ],
   "note": ""
  },
  {
   "property": "C132",
   "status": "proved",
   "theorems": [
    "C132_meets",
    "C132_known",
    "C132_everybody"
   ],
   "note": ""
  },
  {
   "property": "C133",
   "status": "proved",
   "theorems": [
    "C133_round",
    "C133_all"
   ],
   "note": ""
  },
  {
   "property": "C134",
   "status": "proved",
   "theorems": [
    "C134_find_each_other"
   ],
   "note": ""
  },
  {
   "property": "C135",
   "status": "proved",
   "theorems": [
    "C135_begins",
    "C135_find_each_other",
    "C135_from_nothing"
   ],
   "note": ""
  },
  {
   "property": "C136",
   "status": "proved",
   "theorems": [
    "C136_walk",
    "C136_find_each_other"
   ],
   "note": ""
  },
  {
   "property": "C137",
   "status": "proved",
   "theorems": [
    "C137_understood"
   ],
   "note": ""
  },
  {
   "property": "C138",
   "status": "proved",
   "theorems": [
    "C138_goes_on",
    "C138_harmless"
   ],
   "note": ""
  },
  {
   "property": "C139",
   "status": "proved",
   "theorems": [
    "C139_open",
    "C139_reasons",
    "C139_disconnect",
    "C139_sent",
    "C139_turn_sends"
   ],
   "note": ""
  },
  {
   "property": "C140",
   "status": "proved",
   "theorems": [
    "C140_connections",
    "C140_tick",
    "C140_history",
    "C140_reach"
   ],
   "note": "ticks that do not end in a panic of the manager; those that do are in C101; the order in which the map of peers is walked is taken to stay the same during one tick"
  },
  {
   "property": "C141",
   "status": "proved",
   "theorems": [
    "C141_same",
    "C141_room",
    "C141_added"
   ],
   "note": "all runs of the torrent; handing out a piece while the lock is poisoned ends the manager (C101)"
  }
 ]
}
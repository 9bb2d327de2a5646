{"id": "C01", "title": "Setting one piece bit touches only that bit", "statement": "Reading, then setting or clearing, piece i in a piece map reports the previous value of i, leaves every other position unchanged, and a later read of i returns the value just written. An index outside the stored bytes aborts instead of touching anything.", "quantifier": "for all bitmaps, all indices, both values, and all other indices", "why_tests_cant": "A test writes a few indices of a few small maps; frame properties need every other index of every map, including byte boundaries.", "anchors": ["src/data_structures/bitmap.rs: Bitmap::get, Bitmap::change"]}
{"id": "C02", "title": "Iterating a piece map lists exactly the declared pieces", "statement": "Iterating a piece map of declared length n yields exactly n booleans and the k-th equals the value read at index k, whatever the padding bits contain.", "quantifier": "for all bitmaps of every length", "why_tests_cant": "Tests cover two lengths; an off-by-one at a byte boundary or on padding bits depends on the length modulo 8 and on data.", "anchors": ["src/data_structures/bitmap.rs: Bitmap::iter, Iter::next"]}
{"id": "C03", "title": "Weight counts set pieces", "statement": "The weight of a piece map equals the number of pieces currently marked as present (positions below the declared length).", "quantifier": "for all bitmaps reachable from a fresh map by any sequence of changes and replacements", "why_tests_cant": "Requires every byte content including malicious padding bits; tests only set a handful of bits.", "anchors": ["src/data_structures/bitmap.rs: Bitmap::weight"]}
{"id": "C04", "title": "Replacing a piece map is all-or-nothing", "statement": "A fresh map has ceil(n/8) zero bytes. Replacing its raw data succeeds exactly when the byte length is the same, in which case the map reads back the new bytes; otherwise an error is returned and the map is unchanged.", "quantifier": "for all bitmaps and all replacement byte strings", "why_tests_cant": "Atomicity on every failing length cannot be enumerated.", "anchors": ["src/data_structures/bitmap.rs: Bitmap::new, Bitmap::replace_data"]}
{"id": "C05", "title": "Identifier bit access is a 160-bit big-endian view", "statement": "Reading bit i of an identifier is bit 159-i of its big-endian integer value; changing or flipping bit i changes exactly that bit and nothing else.", "quantifier": "for all 160-bit identifiers and all bit positions", "why_tests_cant": "2^160 identifiers times 160 positions.", "anchors": ["src/data_structures/id.rs: ID::get_bit, ID::flip_bit, ID::change_bit"]}
{"id": "C06", "title": "Prefix comparison of identifiers", "statement": "Comparing the first n bits of two identifiers gives the numerical order of their n-bit big-endian prefixes, for every n up to 160.", "quantifier": "for all pairs of identifiers and all n", "why_tests_cant": "Byte and bit boundary cases interact; 2^320 pairs.", "anchors": ["src/data_structures/id.rs: ID::cmp_first_n_bits"]}
{"id": "C07", "title": "First differing bit is the length of the common prefix", "statement": "The first-difference query returns no index exactly when the identifiers are equal, and otherwise the unique index at which they differ while all earlier bits agree; it is symmetric.", "quantifier": "for all pairs of identifiers", "why_tests_cant": "2^320 pairs.", "anchors": ["src/data_structures/id.rs: ID::first_diff_bit_idx"]}
{"id": "C08", "title": "Randomising a tail keeps the prefix", "statement": "Randomising an identifier after bit i keeps bits 0..i for every outcome of the random generator, keeps the length, every suffix is attainable, and it is the identity when i is at or beyond the last bit.", "quantifier": "for all identifiers, positions and all random byte draws", "why_tests_cant": "The random generator is sampled, never exhausted, by a test.", "anchors": ["src/data_structures/id.rs: ID::randomize_after_bit"]}
{"id": "C09", "title": "XOR distance is a metric", "statement": "The distance between identifiers is symmetric, zero exactly for equal identifiers, satisfies the triangle inequality on integer values, and is unidirectional (for a given identifier and distance there is exactly one other identifier).", "quantifier": "for all identifiers", "why_tests_cant": "Algebraic laws over 2^160 values.", "anchors": ["src/data_structures/id.rs: BitXor for ID, Sub for ID"]}
{"id": "C10", "title": "Identifiers are ordered as big-endian integers", "statement": "Comparing two identifiers (hence two XOR distances) yields Equal only for identical identifiers and otherwise agrees with the order of their 160-bit integer values.", "quantifier": "for all pairs of identifiers", "why_tests_cant": "The unit tests of distance ordering only use values whose leading one bits differ; the order of same-magnitude values is never exercised.", "anchors": ["src/data_structures/id.rs: Ord for ID, PartialOrd for ID"]}
{"id": "C11", "title": "Identifier weight is the number of one bits", "statement": "The weight of an identifier is the number of one bits in it (the word-parallel counting trick is exact and never overflows its arithmetic checks).", "quantifier": "for all 160-bit identifiers (all 2^32 words)", "why_tests_cant": "Exhaustion over 2^32 words is not a unit test; carries between byte lanes only show for specific patterns.", "anchors": ["src/data_structures/id.rs: ID::weight, hamming_weight"]}
{"id": "C12", "title": "Compact addresses round trip", "statement": "Encoding an IPv4 peer to compact form and decoding it returns the same address and port; decoding succeeds exactly on 6-byte strings (26 for nodes) and distinct addresses have distinct encodings.", "quantifier": "for all IPv4 addresses, ports, identifiers and all byte strings", "why_tests_cant": "2^48 addresses; all malformed lengths.", "anchors": ["src/transcoding/mod.rs: socketaddr_from_compact_bytes", "src/peers/peer.rs: Peer::from_compact_bytes, Serialize, Deserialize", "src/dht/routing_table/bucket.rs: Node::from_compact_bytes"]}
{"id": "C13", "title": "Wire messages round trip", "statement": "Every peer-wire message whose integers fit 32 bits (16 for port) is serialised to a 4-byte big-endian length, an id and its fields, and parsing a buffer that starts with those bytes yields the same message whatever bytes follow.", "quantifier": "for all messages and all trailing buffer contents", "why_tests_cant": "Message contents and trailing stale bytes are unbounded.", "anchors": ["src/peers/connection/message.rs: Message::into_bytes, Message::from_buf, Message::len, Serialize for *"]}
{"id": "C14", "title": "Wire parsing never aborts on network input", "statement": "Parsing an arbitrary receive buffer either yields a message or reports that none is available; it never aborts the connection task.", "quantifier": "for all byte buffers of the receive buffer size", "why_tests_cant": "Adversarial byte strings; tests only parse what was serialised by the client itself.", "anchors": ["src/peers/connection/message.rs: Message::from_buf"]}
{"id": "C15", "title": "Stream reassembly is independent of segmentation", "statement": "However TCP splits a stream of valid messages into reads, the connection delivers exactly the messages of the stream, in order, each once, and nothing is left behind at the end of the stream.", "quantifier": "for all message sequences (each at most the receive buffer size) and all segmentations into reads", "why_tests_cant": "The number of segmentations is exponential; sockets in tests deliver a couple of fixed ones.", "anchors": ["src/peers/connection/connection_manager.rs: manager_receiver", "src/peers/connection/message.rs: Message::from_buf"]}
{"id": "C16", "title": "Receive loop always makes progress", "statement": "As long as the peer keeps sending bytes of well-formed messages the receive loop keeps consuming them, and it stops when the peer closes the connection.", "quantifier": "for all streams and segmentations", "why_tests_cant": "Liveness over infinite executions.", "anchors": ["src/peers/connection/connection_manager.rs: manager_receiver"]}
{"id": "C17", "title": "Incoming messages reach exactly one consumer", "statement": "Each received message is delivered once and to one consumer only: piece blocks to the downloader, port announcements to the DHT with the peer's own IP and the announced port, keep-alives and everything else to the torrent manager tagged with the sending peer.", "quantifier": "for all peers and all message sequences", "why_tests_cant": "Routing must hold for all interleavings of all message kinds.", "anchors": ["src/peers/connection/connection_manager.rs: handle_message, TryFrom<Message> for ConMessageType"]}
{"id": "C18", "title": "Handshake layout and acceptance", "statement": "The handshake sent is the 68-byte BEP-3 layout with the DHT bit; a reply is accepted only if it is 68 bytes, starts with the protocol string and carries the info hash of this torrent.", "quantifier": "for all info hashes, peer ids and all replies", "why_tests_cant": "All possible replies of a remote peer.", "anchors": ["src/peers/connection/handshake.rs: Handshake, Handshake::check_validity, initiate_handshake"]}
{"id": "C19", "title": "Bounded set of pieces in flight", "statement": "At most ten pieces are in flight; starting a piece already in flight neither fails nor loses its received blocks; starting an eleventh fails and changes nothing.", "quantifier": "for all histories of add piece / add block / take blocks / cancel", "why_tests_cant": "Histories are unbounded.", "anchors": ["src/peers/connection/pending_pieces.rs: PendingPieces::add_piece"]}
{"id": "C20", "title": "Blocks are only accepted with the right size and position", "statement": "A block is stored only if its index exists in the piece, the piece is in flight and its length is the length that block has in the piece (full size except for a shorter final block); otherwise nothing changes.", "quantifier": "for all piece lengths, block indices, block contents and in-flight sets", "why_tests_cant": "Piece lengths include exact multiples of the block size, which the tests never use.", "anchors": ["src/peers/connection/pending_pieces.rs: PendingPieces::add_block_data, check_block_bounds"]}
{"id": "C21", "title": "A piece completes exactly when its last block arrives", "statement": "If every block of an in-flight piece arrives exactly once, in any order and interleaved with other pieces, completion is reported exactly at the last one and the reported data are the blocks in positional order.", "quantifier": "for all piece lengths, all permutations of block arrivals, all interleavings", "why_tests_cant": "n! arrival orders.", "anchors": ["src/peers/connection/pending_pieces.rs: PendingPieces::add_block_data, Piece::new"]}
{"id": "C22", "title": "Block requests: nothing received is requested again, nothing missing is forgotten", "statement": "Taking blocks to request for a set of pieces returns precisely the not-yet-requested blocks of those pieces (and those whose request timed out), marks them as requested, never returns a received block, never returns a block twice, and leaves other pieces alone.", "quantifier": "for all in-flight states, times, shuffles and piece sets", "why_tests_cant": "Shuffle and map order are random; states unbounded.", "anchors": ["src/peers/connection/pending_pieces.rs: PendingPieces::take_not_good_blocks, filtered_iter_over_blocks, cancel_pending"]}
{"id": "C23", "title": "Only hash-checked pieces are reported finished", "statement": "A finished piece is forwarded only if the hash of the concatenation of its blocks equals the expected piece hash; otherwise the piece is put back in flight and nothing is forwarded.", "quantifier": "for all hash functions, block contents, and downloader states", "why_tests_cant": "All corrupted contents.", "anchors": ["src/peers/connection/downloader.rs: foo", "src/transcoding/metainfo.rs: Torrent::piece_hash"]}
{"id": "C24", "title": "Block requests describe a range inside the piece", "statement": "The request sent for block b of piece p names piece p, starts at b times the block size and stays within the piece.", "quantifier": "for all piece lengths and all block addresses", "why_tests_cant": "Piece lengths not divisible by the block size and 32-bit limits.", "anchors": ["src/peers/connection/message.rs: From<BlockAddress> for Request"]}
{"id": "C25", "title": "Peer batches: bounded, distinct, prioritised, marked", "statement": "A requested batch of peers has at most the requested size, contains no duplicates, contains only known peers that were eligible, prefers better statuses (no eligible peer with better status is left out while a worse one is returned), is maximal, and afterwards exactly those peers have become active.", "quantifier": "for all peer tables, all hash-map iteration orders, limits and returned bad peers", "why_tests_cant": "Hash iteration order is random per process; tables are unbounded.", "anchors": ["src/peers/active_peers.rs: Peers::return_batch_of_bad_peers_and_get_new_batch, Peers::get_good_peers, activate_peers_in_locked_data"]}
{"id": "C26", "title": "A peer in use is not handed out again", "statement": "A peer handed out in a batch is not handed out again until it has been returned.", "quantifier": "for all histories of insert/extend/batch operations", "why_tests_cant": "Needs a history in which a tracker re-announces a peer in use.", "anchors": ["src/peers/active_peers.rs: Peers::insert, Extend for Peers, return_batch_of_bad_peers_and_get_new_batch"]}
{"id": "C27", "title": "Peers are never lost", "statement": "The set of known peer addresses after any history is exactly the set of addresses ever inserted, extended with or returned, without duplicates.", "quantifier": "for all histories and iteration orders", "why_tests_cant": "Unbounded histories.", "anchors": ["src/peers/active_peers.rs: Peers::peer_addresses"]}
{"id": "C28", "title": "Asking whether there are enough peers has no side effect", "statement": "The enough-peers query answers true exactly when at least 128 peers are not known to be unreachable, and leaves the peer table unchanged.", "quantifier": "for all peer tables", "why_tests_cant": "Absence of side effects for all tables.", "anchors": ["src/peers/active_peers.rs: Peers::enough_peers"]}
{"id": "C29", "title": "Torrent manager respects its limits", "statement": "Whatever connection events arrive, the torrent manager never has more than 10 active peers nor more than 9 active pieces, and its free-slot subtractions never underflow.", "quantifier": "for all histories of connection messages and ticks, all peer batches", "why_tests_cant": "Unbounded histories.", "anchors": ["src/torrent_manager.rs: TorrentManager::refresh_peer_list, start_downloading_new_pieces, mark_piece_as_ongoing"]}
{"id": "C30", "title": "Piece availability counts are exact", "statement": "At every moment the availability count of each piece equals the number of active peers that announced it.", "quantifier": "for all histories of have / bitfield / disconnect / refresh", "why_tests_cant": "Invariant over unbounded histories.", "anchors": ["src/torrent_manager.rs: TorrentManager::handle_command_tmp, accept_bitfield_if_its_first, mark_peer_as_inactive, refresh_peer_list"]}
{"id": "C31", "title": "Piece selection is sound", "statement": "When the scheduler assigns a piece to a peer, the piece is still missing, the peer is active, does not choke us, has announced the piece and has fewer than four pieces assigned.", "quantifier": "for all manager states and peer iteration orders", "why_tests_cant": "All states and hash orders.", "anchors": ["src/torrent_manager.rs: sequential_select_piece, find_peer_with_piece, iter_over_remaining_downloadable_pieces"]}
{"id": "C32", "title": "Piece selection finds work whenever there is some", "statement": "If some missing piece is held by an active, non-choking peer with spare capacity, the scheduler assigns some piece.", "quantifier": "for all manager states", "why_tests_cant": "Starvation states are not reached by tests.", "anchors": ["src/torrent_manager.rs: sequential_select_piece"]}
{"id": "C33", "title": "A remote peer cannot abort the torrent manager", "statement": "Handling any message from any active peer leaves the torrent manager running.", "quantifier": "for all manager states and remote messages", "why_tests_cant": "Adversarial messages (out-of-range have, request, cancel).", "anchors": ["src/torrent_manager.rs: handle_command_tmp"]}
{"id": "C34", "title": "File chunks partition the requested range", "statement": "The per-file chunks computed for a byte range of a multi-file torrent cover the range exactly once, in file order, each inside its file, with correct offsets before/within/after.", "quantifier": "for all file length lists (including empty files) and all ranges", "why_tests_cant": "Arbitrary file layouts.", "anchors": ["src/fs/multi_file_iter.rs: FilesInBounds::new, FilesInBounds::next"]}
{"id": "C35", "title": "Single-file storage round trip", "statement": "After writing every piece of a single-file torrent, in any order, the file holds exactly the torrent's bytes, and reading any block returns the bytes written.", "quantifier": "for all file lengths, piece lengths, block splits, contents and write orders", "why_tests_cant": "Lengths that are exact multiples of the piece length are a special case; n! write orders.", "anchors": ["src/fs/single_file_rw.rs: write_piece, write_middle_piece, write_last_piece, read_block"]}
{"id": "C36", "title": "Multi-file storage round trip", "statement": "After writing every piece of a multi-file torrent, in any order, each file holds exactly its slice of the torrent's bytes, and reading any block range returns the bytes written.", "quantifier": "for all file layouts, piece lengths, contents and write orders", "why_tests_cant": "Arbitrary alignment of files against pieces and blocks.", "anchors": ["src/fs/multi_file_rw.rs: write_piece, write_file_chunk, read_block", "src/fs/multi_file_iter.rs"]}
{"id": "C37", "title": "File handle cache is bounded and evicts the stalest", "statement": "At most 16 files are open; a successful access leaves the accessed file cached; only one other file can be evicted per access, only when full, and it is the one with the largest weighted idle time.", "quantifier": "for all access histories and clock readings", "why_tests_cant": "Unbounded histories.", "anchors": ["src/fs/file_cache.rs: FileCache::get_entry, evict, CacheEntry::weighted_elapsed"]}
{"id": "C38", "title": "Directories are created parents first and files stay below the working directory", "statement": "The directory list of a torrent contains every ancestor directory of every file, without duplicates, each after its parent; every created path lies below the working directory.", "quantifier": "for all file path lists in a torrent", "why_tests_cant": "Arbitrary nesting and adversarial path components.", "anchors": ["src/fs/multi_file_rw.rs: build_dir_tree, create_dirs, dirs_by_asc_depth"]}
{"id": "C39", "title": "Bencode round trip", "statement": "Encoding a bencode value with sorted distinct keys and decoding yields the value and leaves exactly the trailing bytes; canonical encodings are unique.", "quantifier": "for all bencode values and all trailing bytes", "why_tests_cant": "Unbounded nesting and content.", "anchors": ["src/dht/krpc_message.rs: from_bytes, to_bytes"]}
{"id": "C40", "title": "DHT messages round trip", "statement": "Every DHT query, response or error built by the client decodes back to itself, even when followed by stale bytes of the receive buffer.", "quantifier": "for all transaction ids, identifiers, node lists, peer lists, tokens", "why_tests_cant": "Untagged decoding tries alternatives in order; ambiguity appears only for particular shapes.", "anchors": ["src/dht/krpc_message.rs: Message, Arguments, Response, Nodes, ValuesOrNodes"]}
{"id": "C41", "title": "A DHT response is delivered at most once and only to a matching request", "statement": "A response is forwarded only if a request with the same transaction id and kind is outstanding, each request receives at most one response, and a mismatching response does not consume the request.", "quantifier": "for all interleavings of outgoing queries and incoming responses", "why_tests_cant": "All interleavings.", "anchors": ["src/dht/connection/pending.rs: PendingRequests", "src/dht/connection/connection_manager.rs: handle_resp"]}
{"id": "C42", "title": "Announce tokens", "statement": "A token handed to an IP in a peers response is accepted in an announce from the same IP; an announce whose token differs from the one for the sender's IP stores nothing and is not answered.", "quantifier": "for all hash functions, secrets, addresses, tokens", "why_tests_cant": "All token values.", "anchors": ["src/dht/connection/connection_manager.rs: handle_query, token_is_valid"]}
{"id": "C43", "title": "DHT datagram handling never aborts", "statement": "Any datagram received by the DHT socket is answered, forwarded or dropped; the DHT task keeps running.", "quantifier": "for all datagrams", "why_tests_cant": "Adversarial datagrams.", "anchors": ["src/data_structures/id.rs: Deserialize for ID", "src/dht/krpc_message.rs", "src/dht/connection/connection_manager.rs: handle_received"]}
{"id": "C44", "title": "Routing table structure", "statement": "After any sequence of insertions at any times, every known node sits in the bucket given by its common prefix with our id, no id is stored twice, each bucket holds at most 8 nodes, and there are at most 161 buckets; no operation aborts.", "quantifier": "for all own ids and all histories of touches", "why_tests_cant": "Splitting depends on whole histories.", "anchors": ["src/dht/routing_table/table.rs: RoutingTable::touch_node, insert_new_good, split, find_bucket_idx_by_id", "src/dht/routing_table/bucket.rs: Bucket::try_insert, split"]}
{"id": "C45", "title": "Good nodes are never evicted", "statement": "Touching a node never removes or changes another node seen within the last 15 minutes; at most one stale node is dropped, and only to make room.", "quantifier": "for all tables, times, ids and addresses", "why_tests_cant": "Eviction choice over all bucket contents and times.", "anchors": ["src/dht/routing_table/bucket.rs: Bucket::try_insert, find_replaceable_node_idx", "src/dht/routing_table/table.rs: touch_node"]}
{"id": "C46", "title": "A node sharing our prefix is always admitted", "statement": "A node whose id falls in the bucket covering our own id is admitted whenever repeated splitting can make room for it.", "quantifier": "for all tables and ids", "why_tests_cant": "Needs a full own bucket and an id with a particular first difference.", "anchors": ["src/dht/routing_table/bucket.rs: Bucket::id_within_bucket_range", "src/dht/routing_table/table.rs: insert_new_good"]}
{"id": "C47", "title": "Closest-node lookup returns the closest good nodes", "statement": "A lookup returns the 8 good nodes closest to the target by XOR distance, closest first (all good nodes if fewer).", "quantifier": "for all reachable tables, targets and times", "why_tests_cant": "Depends on the distribution over buckets.", "anchors": ["src/dht/routing_table/table.rs: find_node, get_closest_nodes", "src/dht/routing_table/bucket.rs: cmp_by_distance_to_id"]}
{"id": "C48", "title": "Routing table survives a restart", "statement": "Storing a routing table and loading it returns the same own id, buckets, node ids and addresses (with all nodes unverified); a truncated file is never accepted.", "quantifier": "for all routing tables", "why_tests_cant": "All tables and all truncation points.", "anchors": ["src/dht/routing_table/table.rs: store, load", "src/dht/routing_table/bucket.rs: derive Serialize"]}
{"id": "C49", "title": "Refresh targets fall in the bucket being refreshed", "statement": "The ids generated to refresh buckets are exactly one per bucket that can still take nodes (a non-full bucket, or our own bucket while it can be split), and each falls, for every random draw, into the bucket it is meant for.", "quantifier": "for all reachable tables and random draws", "why_tests_cant": "Random draws.", "anchors": ["src/dht/routing_table/table.rs: iter_over_ids_within_fillable_buckets", "src/data_structures/id.rs: randomize_after_bit"]}
{"id": "C50", "title": "Announced peers are served", "statement": "A peer announced for an info hash is returned by later lookups of that hash and by no lookup of another hash.", "quantifier": "for all histories of announces and lookups", "why_tests_cant": "Unbounded histories.", "anchors": ["src/dht/dht_manager.rs: store_new_peer, find_peers"]}
{"id": "C51", "title": "Peer search keeps the most promising nodes and announces only with tokens", "statement": "When the search set is trimmed it keeps at most 128 nodes none of which ranks behind a dropped one; announces go to at most 16 nodes, each of which supplied the token used; within a round no address is queried twice while it is remembered, and the set stays below 512.", "quantifier": "for all search states and response sequences", "why_tests_cant": "Unbounded sequences and hash orders.", "anchors": ["src/dht/peer_fetcher.rs: forget_far_nodes, get_sorted_nodes, announce_peer, get_peers_from_new_nodes"]}
{"id": "C52", "title": "Percent encoding of binary fields", "statement": "The percent-encoded info hash and peer id contain only URL-safe characters and decode back to the original bytes; different hashes give different URLs.", "quantifier": "for all byte strings", "why_tests_cant": "All 256 byte values in all positions and injectivity over all strings.", "anchors": ["src/tracker/announce.rs: Announce::as_url"]}
{"id": "C53", "title": "Announce URL carries the announce parameters", "statement": "Parsing the query string of the announce URL returns exactly the info hash, peer id, port, counters, event and tracker id of the announce.", "quantifier": "for all announces and tracker ids", "why_tests_cant": "Adversarial tracker ids.", "anchors": ["src/tracker/announce.rs: Announce::as_url"]}
{"id": "C54", "title": "Tracker session protocol", "statement": "The first announce of a session is 'started', it is repeated until the tracker answers, later ones are plain or 'completed', a 'stopped' is sent at most once and last, and once a tracker id was received every later announce carries it.", "quantifier": "for all sequences of tracker answers, failures, completions and shutdown times", "why_tests_cant": "All interleavings.", "anchors": ["src/tracker/tracker_manager.rs"]}
{"id": "C55", "title": "Tracker responses decode to the peers they list", "statement": "A tracker response with compact peers yields exactly the listed addresses in order; a response lacking a required field is rejected.", "quantifier": "for all peer lists and field values", "why_tests_cant": "Unbounded lists.", "anchors": ["src/tracker/response.rs"]}
{"id": "C56", "title": "Torrent file decoding", "statement": "A torrent file yields its piece hashes in order (20 bytes each, rejecting other sizes), total length as sum of its files, its info hash as the hash of the raw info bytes, and its tracker URLs classified by scheme.", "quantifier": "for all torrent dictionaries", "why_tests_cant": "Arbitrary dictionaries.", "anchors": ["src/transcoding/metainfo.rs"]}
{"id": "C57", "title": "Shutdown waits for everyone", "statement": "Waiting for shutdown finishes exactly when every task holding a receiver has dropped it, and every receiver that existed at the time of the signal observes it exactly once.", "quantifier": "for all interleavings of clone, drop, send and receive", "why_tests_cant": "All interleavings.", "anchors": ["src/shutdown.rs"]}
{"id": "C58", "title": "Choke state is respected by the downloader", "statement": "After the peer chokes us no block is requested until it unchokes us.", "quantifier": "for all interleavings of choke/unchoke and download steps", "why_tests_cant": "All interleavings.", "anchors": ["src/peers/connection/connection_handle.rs: ChokeLocker, UnchokeWaiter", "src/peers/connection/downloader.rs"]}
{"id": "C59", "title": "Retry interval grows but is capped", "statement": "The n-th wait is the growth formula at n capped by the maximum; with a growing formula waits never shrink.", "quantifier": "for all formulas and numbers of ticks", "why_tests_cant": "Unbounded number of ticks.", "anchors": ["src/capped_growing_interval.rs"]}
{"id": "C60", "title": "Unsupported wire messages are skipped without loss", "statement": "A well-framed message with an id this client does not know is skipped and every message before and after it is still delivered.", "quantifier": "for all surrounding message sequences and all segmentations into reads", "why_tests_cant": "Depends on how TCP groups messages into reads.", "anchors": ["src/peers/connection/connection_manager.rs: manager_receiver", "src/peers/connection/message.rs: from_buf"]}
{"id": "C61", "title": "Handshake acceptance does not depend on segmentation", "statement": "A valid handshake reply is accepted however TCP splits it.", "quantifier": "for all valid replies and all sizes of the first read", "why_tests_cant": "Depends on network timing.", "anchors": ["src/peers/connection/handshake.rs: initiate_handshake"]}
{"id": "C62", "title": "A block received twice does no harm", "statement": "Delivering a block that was already received neither completes the piece early nor aborts.", "quantifier": "for all in-flight states and blocks", "why_tests_cant": "Needs a peer that answers one request twice, at every possible point of the piece.", "anchors": ["src/peers/connection/pending_pieces.rs: add_block_data"]}
{"id": "C63", "title": "Receiving a wanted block never aborts the downloader", "statement": "When a block that was requested arrives with the right length, the download task continues: it either waits for the rest of the piece or forwards the finished piece.", "quantifier": "for all pieces, blocks and downloader states", "why_tests_cant": "Covers every block number and every piece length.", "anchors": ["src/peers/connection/downloader.rs: foo"]}
{"id": "C64", "title": "A refused block is requested again", "statement": "If the data received for a requested block are refused, that same block is requested again.", "quantifier": "for all outstanding request lists and refused blocks", "why_tests_cant": "Depends on which other requests are outstanding.", "anchors": ["src/peers/connection/downloader.rs: foo"]}
{"id": "C65", "title": "Work is spread, not repeated", "statement": "In one scheduling round no peer is asked twice for the same piece.", "quantifier": "for all reachable manager states and peer iteration orders", "why_tests_cant": "Needs all states the scheduler can reach, with several peers and pieces.", "anchors": ["src/torrent_manager.rs: start_downloading_new_pieces, sequential_select_piece, mark_piece_as_ongoing"]}
{"id": "C66", "title": "A peer that gets a slot is really contacted", "statement": "Whenever the torrent manager gives a peer an active slot, including after an earlier failure or disconnect, a connection to it is started.", "quantifier": "for all histories of connection events, ticks and peer discoveries", "why_tests_cant": "Needs histories in which a peer fails, is returned and is handed out again.", "anchors": ["src/torrent_manager.rs: refresh_peer_list, mark_peer_as_inactive", "src/peers/connection/connection_handle.rs: Connection::connect, disconnect"]}
{"id": "C67", "title": "An active piece has somebody working on it", "statement": "Every piece that occupies one of the nine active-piece slots is being downloaded from at least one active peer.", "quantifier": "for all histories", "why_tests_cant": "Leaks of slots show up only in long histories with disconnects.", "anchors": ["src/torrent_manager.rs: mark_piece_as_ongoing, mark_peer_as_inactive"]}
{"id": "C68", "title": "Reading beyond the end of the torrent fails", "statement": "A block read whose range reaches beyond the last byte of the torrent is answered with an error, never with data.", "quantifier": "for all torrents, disk contents and ranges", "why_tests_cant": "The range comes from the remote peer.", "anchors": ["src/fs/multi_file_rw.rs: read_block", "src/fs/single_file_rw.rs: read_block"]}
{"id": "C69", "title": "A torrent can be resumed", "statement": "Setting up the storage of a multi-file torrent whose directories were created by an earlier run succeeds.", "quantifier": "for all torrents and directory trees", "why_tests_cant": "Needs two runs over the same directory, for arbitrary layouts.", "anchors": ["src/fs/multi_file_rw.rs: MultiFileRw::new, dir_builder::create_dirs"]}
{"id": "C70", "title": "Lost peers are given back", "statement": "A peer that disconnects or cannot be reached frees its active slot at once, and the next refresh reports it to the peer table with the right status, exactly once.", "quantifier": "for all reachable manager and table states", "why_tests_cant": "Needs every state in which the event can occur.", "anchors": ["src/torrent_manager.rs: mark_peer_as_inactive, refresh_peer_list"]}
{"id": "C71", "title": "The table records where a node was last seen", "statement": "After any history of touches, the address stored for a known node is the address it was most recently heard from.", "quantifier": "for all own ids and all histories of touches", "why_tests_cant": "Histories in which a node changes its address.", "anchors": ["src/dht/routing_table/table.rs: touch_node", "src/dht/routing_table/bucket.rs: Bucket::get_node_mut, Node::touch"]}
{"id": "C72", "title": "A damaged routing table file is discarded", "statement": "Whatever bytes the stored routing table holds, start-up either accepts a table the client can use or starts with a fresh one; it never aborts.", "quantifier": "for all file contents", "why_tests_cant": "All byte strings.", "anchors": ["src/dht/routing_table/table.rs: RoutingTable::new, try_loading_from_disk", "src/data_structures/id.rs: Deserialize for ID"]}
{"id": "C73", "title": "DHT messages follow BEP 5", "statement": "Every DHT message the client sends is, byte for byte, the bencoded dictionary BEP 5 prescribes for it: sorted keys, compact nodes and peers in network byte order.", "quantifier": "for all messages the client can build", "why_tests_cant": "Example packets fix only a few shapes; the layout must hold for all ids, tokens, ports and list lengths.", "anchors": ["src/dht/krpc_message.rs: derive Serialize for Message, Serialize for Nodes", "src/peers/peer.rs: Serialize for Peer"]}
{"id": "C74", "title": "A datagram is interpreted from its own bytes only", "statement": "What the DHT does with a received datagram does not depend on datagrams received earlier.", "quantifier": "for all previous buffer contents and all datagrams", "why_tests_cant": "Needs a short datagram after a suitable long one.", "anchors": ["src/dht/connection/connection_manager.rs: manage_udp"]}
{"id": "C75", "title": "A DHT answer is accepted only from the node that was asked", "statement": "A response is passed on to a requester only if it comes from the address the matching query was sent to.", "quantifier": "for all histories of queries and received messages", "why_tests_cant": "Needs a third party in the test.", "anchors": ["src/dht/connection/connection_manager.rs: handle_resp", "src/dht/connection/pending.rs: PendingRequests::get"]}
{"id": "C76", "title": "Genuine DHT answers reach the requester", "statement": "The datagram with which another node answers an outstanding query of ours (ping, find_node, get_peers or announce_peer) is passed on to the task that asked.", "quantifier": "for all outstanding queries and all well-formed answers", "why_tests_cant": "The kind of an answer is guessed from its fields; all shapes matter.", "anchors": ["src/dht/krpc_message.rs: Response (untagged)", "src/dht/connection/connection_manager.rs: handle_resp"]}
{"id": "C77", "title": "Unanswered DHT queries are eventually forgotten", "statement": "The number of remembered outstanding queries stays bounded however many queries remain unanswered.", "quantifier": "for all histories", "why_tests_cant": "Unbounded histories.", "anchors": ["src/dht/connection/pending.rs: PendingRequests"]}
{"id": "C78", "title": "DHT answers fit the datagram size", "statement": "Every answer the DHT sends is at most 1300 bytes long (the client's own DHT_MTU, which is also the size of its receive buffer).", "quantifier": "for all histories, tables, announced peers and queries", "why_tests_cant": "Needs hundreds of announced peers and the exact bencode overhead.", "anchors": ["src/dht/dht_manager.rs: find_peers", "src/dht/krpc_message.rs: Serialize for Response"]}
{"id": "C79", "title": "Only nodes that answered enter the routing table", "statement": "After any history the routing table holds only nodes it started with and nodes that answered a query from that address; nodes merely named by others are pinged exactly when they are not in the table; no message stops the DHT task.", "quantifier": "for all histories of DHT task inputs, interleaved with use of the shared peer table", "why_tests_cant": "Unbounded histories.", "anchors": ["src/dht/dht_manager.rs: dht, process_resp"]}
{"id": "C80", "title": "A DHT lookup by somebody else does not affect our download", "statement": "Answering another node's get_peers query leaves the status of every known peer unchanged.", "quantifier": "for all histories and lookups", "why_tests_cant": "Needs the torrent manager and a remote lookup interleaved.", "anchors": ["src/dht/dht_manager.rs: find_peers", "src/peers/active_peers.rs: get_good_peers"]}
{"id": "C81", "title": "The peer search learns peers from the nodes it asked", "statement": "Every peer named in the answer of a node of the current search becomes known; peers named by anybody else are ignored; nothing else in the search adds or removes peers.", "quantifier": "for all histories of rounds, answers and silences, interleaved with other users of the peer table", "why_tests_cant": "Unbounded histories and hash orders.", "anchors": ["src/dht/peer_fetcher.rs: fetch_peers"]}
{"id": "C82", "title": "DHT lookups are answered from what is known, and the table is refreshed", "statement": "A find_node or get_peers query is answered to its sender with its transaction id, with the node looked up, peers, or good nodes of the table (none much farther than a good node left out), and goes unanswered only if nothing usable is known; a refresh asks the closest good node about every refresh target; neither changes the table.", "quantifier": "for all histories of the DHT task, times and queries", "why_tests_cant": "Unbounded histories and tables.", "anchors": ["src/dht/dht_manager.rs: process_query, refresh_table", "src/dht/routing_table/table.rs: get_closest_node"]}
{"id": "C83", "title": "The peer search is started exactly once, with usable nodes", "statement": "The DHT task starts the search for peers in the first turn after which its table holds a good node, never twice, for the torrent's hash, with 1 to 15 good nodes of the table.", "quantifier": "for all histories of the DHT task", "why_tests_cant": "Unbounded histories; the start condition is a flag in a loop.", "anchors": ["src/dht/dht_manager.rs: dht", "src/dht/peer_fetcher.rs: spawn_fetcher"]}
{"id": "C84", "title": "The tracker is told when the client leaves", "statement": "A session whose tracker answered at least once and that is then shut down sends 'stopped' as its last announce; and every session of an accepted torrent starts.", "quantifier": "for all session histories and shutdown times", "why_tests_cant": "The shutdown may arrive at any point of any history.", "anchors": ["src/tracker/tracker_manager.rs: spawn_tracker_managers, manage_http_tracker", "src/tracker/announce.rs: Announce"]}
{"id": "C85", "title": "The routing table is refreshed on schedule", "statement": "While the DHT task runs, the time between two refreshes of its routing table never exceeds the scheduled wait (at most 200 s), whatever messages arrive.", "quantifier": "for all arrival times of messages and numbers of turns", "why_tests_cant": "Unbounded time; depends on what select! does with the losing branch.", "anchors": ["src/dht/dht_manager.rs: dht", "src/capped_growing_interval.rs: tick"]}
{"id": "C86", "title": "An accepted torrent is consistent", "statement": "A torrent file that is accepted has a positive piece length and exactly as many piece hashes as its total length needs.", "quantifier": "for all byte strings", "why_tests_cant": "Arbitrary dictionaries.", "anchors": ["src/transcoding/metainfo.rs: Torrent::from_buf"]}
{"id": "C87", "title": "A piece assigned to a peer is requested from it", "statement": "When the torrent manager starts a piece on a connected peer, the blocks of that piece are requested from the peer; no sequence of connects, assignments, chokes, blocks and disconnects makes a download task or the manager abort.", "quantifier": "for all interleavings of manager calls and download tasks", "why_tests_cant": "All interleavings of tasks that share one mutex.", "anchors": ["src/peers/connection/connection_handle.rs: Connection", "src/peers/connection/downloader.rs: manage_piece_downloader", "src/peers/connection/pending_pieces.rs: take_not_good_blocks"]}
{"id": "C88", "title": "A peer that has wanted pieces is told that we are interested", "statement": "A connected peer that has a piece we lack is sent 'interested' (otherwise it has no reason to unchoke us).", "quantifier": "for all histories", "why_tests_cant": "Unbounded histories.", "anchors": ["src/torrent_manager.rs: TorrentManager::manage", "src/peers/connection/connection_handle.rs: interested"]}
{"id": "C89", "title": "The DHT never locks up", "statement": "However many messages arrive and however fast its tasks run, the DHT's socket task and its managing task never wait for each other for ever: the client always gets to take the next message, and a shutdown is always honoured.", "quantifier": "for all arrivals of messages, all schedules of the tasks and all channel capacities", "why_tests_cant": "Depends on several bounded channels being full at the same time, in a schedule no test controls.", "anchors": ["src/dht/connection/connection_manager.rs: ConnectionManager::manage_udp", "src/dht/connection/connection_handle.rs: Connection::new", "src/dht/dht_manager.rs: dht"]}
{"id": "C90", "title": "The peer search does not hold up the rest of the DHT", "statement": "While the search for peers pauses between two rounds, the DHT goes on taking messages and answering queries.", "quantifier": "for all histories, including late responses to earlier queries", "why_tests_cant": "Needs a full channel during a pause; all schedules.", "anchors": ["src/dht/peer_fetcher.rs: fetch_peers", "src/dht/connection/connection_manager.rs: handle_resp"]}
{"id": "C91", "title": "Every DHT answer belongs to a query, and every ping gets one", "statement": "Over any run of the whole DHT, the answers of each kind sent to an address with a transaction id never outnumber the queries of that kind received from that address with that transaction id; and whenever the socket task is ready for the next message, it has answered every ping received exactly once.", "quantifier": "for all runs, all senders, transaction ids and kinds of query", "why_tests_cant": "Counts over unbounded histories of three tasks and five channels.", "anchors": ["src/dht/connection/connection_manager.rs: handle_query, send", "src/dht/dht_manager.rs: process_query"]}
{"id": "C92", "title": "A response reaches the task that asked for it, once", "statement": "Over any run of the whole DHT, the DHT task takes at most as many responses as pings and find_node queries were sent and as responses of these kinds were received; the peer search takes at most as many as get_peers and announce_peer queries were sent and as responses of those kinds were received.", "quantifier": "for all runs, all draws of transaction ids, all datagrams, all channel capacities", "why_tests_cant": "Counts over unbounded histories of three tasks, a table of pending requests and five channels; colliding transaction ids included.", "anchors": ["src/dht/connection/pending.rs", "src/dht/connection/connection_manager.rs: handle_resp", "src/dht/connection/connection_handle.rs: clone"]}
{"id": "C93", "title": "The routing table is kept however the DHT ends", "statement": "When the DHT task ends, the routing table it held is on disk.", "quantifier": "for all runs of the DHT, whatever ended it", "why_tests_cant": "All ways the loop can be left, from any state.", "anchors": ["src/dht/dht_manager.rs: dht", "src/dht/routing_table/table.rs: store"]}
{"id": "C94", "title": "One peer cannot end the download", "statement": "No message from one connected peer makes the client, without anything further from outside, give up its torrent manager, every other connection and the DHT.", "quantifier": "for all runs of the whole client, all connected peers and all messages", "why_tests_cant": "A panic in one task closes channels that end others; which ones depends on the state of all tasks at once.", "anchors": ["src/torrent_manager.rs: handle_command_tmp, manage", "src/peers/connection/connection_manager.rs: handle_message", "src/peers/connection/downloader.rs: manage_piece_downloader", "src/dht/dht_manager.rs: dht", "src/main.rs: main"]}
{"id": "C95", "title": "Ctrl-C ends the client", "statement": "After Ctrl-C the client always gets to end by itself, whatever happened before.", "quantifier": "for all runs of the whole client before the signal", "why_tests_cant": "Needs every task that holds a shutdown receiver to come back to its select; all schedules.", "anchors": ["src/main.rs: main", "src/shutdown.rs", "src/dht/dht_manager.rs: dht", "src/tracker/tracker_manager.rs: spawn_tracker_managers, manage_http_tracker"]}
{"id": "C96", "title": "The client connects only to peers named to it for this torrent, each at most once", "statement": "Over any run of the whole client, every address it opens a TCP connection to was named before, by a tracker's answer, by a DHT node's answer with peers, or by the peer itself announcing over the DHT for this torrent with the token the client had given it; and no address is connected to twice.", "quantifier": "for all runs of the whole client, all interleavings of its tasks, all hash map orders and everything the outside sends", "why_tests_cant": "Peers flow through a shared table written by four tasks; a test sees one interleaving.", "anchors": ["src/torrent_manager.rs: refresh_peer_list", "src/peers/active_peers.rs", "src/dht/dht_manager.rs: store_new_peer", "src/dht/peer_fetcher.rs", "src/tracker/tracker_manager.rs", "src/peers/connection/connection_handle.rs: connect"]}
{"id": "C97", "title": "Never more than ten connections at once", "statement": "At any moment of any run at most ten connections are open or being opened.", "quantifier": "for all runs of the whole client", "why_tests_cant": "The manager counts its active peers while connection tasks end on their own; needs all interleavings.", "anchors": ["src/torrent_manager.rs: refresh_peer_list, handle_command_tmp", "src/peers/connection/connection_manager.rs"]}
{"id": "C98", "title": "A connection that ends makes room for another", "statement": "A client that has lost its connections and knows peers it has never tried can still come to connect to one of them.", "quantifier": "for all runs of the whole client and all their continuations", "why_tests_cant": "A statement that something stays possible after any history.", "anchors": ["src/peers/connection/connection_manager.rs: connection_manager, manager_receiver", "src/torrent_manager.rs: refresh_peer_list, handle_command_tmp", "src/peers/connection/connection_handle.rs: connect, disconnect"]}
{"id": "C99", "title": "A peer that is named is connected to while there is room", "statement": "When a tracker names a peer that was never tried, and there are places for all peers waiting to be tried, the client opens a connection to it the next time it looks for peers, whatever else happens in between.", "quantifier": "for all runs of the whole client, all trackers, answers and peers", "why_tests_cant": "The table of peers is shared with the DHT, which changes it between the answer and the look; needs all interleavings.", "anchors": ["src/torrent_manager.rs: refresh_peer_list", "src/tracker/tracker_manager.rs", "src/peers/active_peers.rs", "src/dht/dht_manager.rs: find_peers"]}
{"id": "C100", "title": "A torrent with a seeder can be downloaded", "statement": "When a connected peer has a piece, does not choke us and sends every block of it, the client comes to hold the piece.", "quantifier": "for all torrents and all runs of the torrent manager with its connections and downloaders, whatever the peers send", "why_tests_cant": "A statement about everything the program can ever do; a test of one part shows nothing about the parts together.", "anchors": ["src/torrent_manager.rs", "src/peers/connection/connection_handle.rs", "src/peers/connection/downloader.rs", "src/peers/connection/pending_pieces.rs"]}
{"id": "C101", "title": "Peers that follow the protocol do not end the download", "statement": "As long as peers only send the messages an ordinary seeder sends, the torrent manager goes on running; in particular no downloader fails in a way that reaches it.", "quantifier": "for all runs of the torrent manager with its downloaders and all interleavings of their turns", "why_tests_cant": "The failure of one task reaches another through a shared lock, at a moment that depends on scheduling.", "anchors": ["src/torrent_manager.rs: manage, start_downloading_piece", "src/peers/connection/connection_handle.rs: download_piece", "src/peers/connection/downloader.rs", "src/peers/connection/pending_pieces.rs: take_not_good_blocks"]}
{"id": "C102", "title": "A tick of the torrent manager always comes to an end", "statement": "Once its timer has fired, the manager gets back to waiting for messages by its own steps and those of the downloaders, without anything from the network: a full command queue is emptied by the downloader it belongs to, and a downloader that is gone does not hold it up. Whatever happens meanwhile, the number of these steps until the next tick is bounded by the rounds left and the commands queued, and as long as the manager is not back one of them can be taken.", "quantifier": "for all reachable states of manager and downloaders", "why_tests_cant": "Absence of a deadlock between tasks with bounded queues.", "anchors": ["src/torrent_manager.rs: start_downloading_new_pieces", "src/peers/connection/connection_handle.rs: download_piece", "src/peers/connection/downloader.rs"]}
{"id": "C103", "title": "Trackers are told the truth about the progress", "statement": "In every announce, `left` is the number of bytes of the torrent that the client does not have yet, `downloaded` the number it received; when the last piece arrives, the trackers are told `completed`.", "quantifier": "for all torrents and all sets of pieces held; for all runs of the whole client", "why_tests_cant": "The numbers are computed far from where pieces arrive, from a counter shared between tasks; the last piece is usually shorter; needs all runs.", "anchors": ["src/tracker/announce.rs", "src/tracker/tracker_manager.rs", "src/main.rs: pieces_downloaded", "src/torrent_manager.rs"]}
{"id": "C104", "title": "The trackers of the torrent are asked about the torrent, and nobody else", "statement": "Every tracker that the torrent file names is contacted when the client starts; every announce of the whole run goes to a URL in the file, carries the SHA-1 of the bytes of its info dictionary, our peer id and the port that was opened; if the file cannot be read or parsed, or no port can be opened, nothing is sent.", "quantifier": "for all bytes of the torrent file and all runs of the client started from it", "why_tests_cant": "Relates the bytes of the file to everything that is sent during the whole life of the program.", "anchors": ["src/main.rs", "src/transcoding/metainfo.rs", "src/tracker/tracker_manager.rs", "src/tracker/announce.rs"]}
{"id": "C105", "title": "The DHT part asks only nodes it learned of properly, and only about our torrent", "statement": "Every query sent carries our node id and goes to an address that was in the stored table, that answered a query of ours, that such an answer lists, or that a connected peer gave as its DHT port. Queries for peers and announcements are about our info hash only; an announcement gives our TCP port and a token that the very same address gave us in an answer to a query for peers. Who only sends us queries, or responses with a transaction id we never used, is never asked anything.", "quantifier": "for all runs of the whole DHT (all schedules of its three tasks, all channel capacities, all datagrams, all stored tables)", "why_tests_cant": "Universal statement about everything ever sent, relating it to everything received before; a confused token or target needs an unlucky interleaving.", "anchors": ["src/dht/dht_manager.rs", "src/dht/peer_fetcher.rs", "src/dht/connection/connection_manager.rs", "src/dht/connection/pending.rs", "src/dht/routing_table/table.rs"]}
{"id": "C106", "title": "Announcements to DHT nodes use fresh tokens", "statement": "The token in an announcement was given by the node since it was last asked for peers.", "quantifier": "for all runs of the whole DHT", "why_tests_cant": "Depends on which nodes stay silent in which round of a search that runs for the whole life of the program.", "anchors": ["src/dht/peer_fetcher.rs: announce_peer, fetch_peers"]}
{"id": "C107", "title": "A tracker is not asked more often than it allows", "statement": "Between an answer of a tracker and the next announce that only the passing of time calls for, at least the `interval` and the `min interval` of that answer pass; a failed announce is repeated after 64 seconds at the earliest. So with answers asking for k seconds or more, the number of announces in any time is bounded by that time over k, apart from the first, the last and the reported completions.", "quantifier": "for all runs of a tracker session: all answers, failures, times and orders of events", "why_tests_cant": "A bound on a rate over unbounded time, for trackers that choose the intervals and fail at will; a test sees a few requests of one tracker.", "anchors": ["src/tracker/tracker_manager.rs:84-150", "src/tracker/response.rs"]}
{"id": "C108", "title": "A downloader requests what nobody has asked for, and nothing else", "statement": "At its first wake-up and at every fifth one after it a downloader requests every block of the pieces assigned to it that nobody has been asked for; every request it sends is for such a block, for one whose request expired, for one of a piece that turned out wrong, or repeats one whose data were refused.", "quantifier": "for all histories of wake-ups (commands, blocks, any times), whatever other connections do to the shared pieces in between", "why_tests_cant": "Depends on the order of wake-ups and on what other connections do in between.", "anchors": ["src/peers/connection/downloader.rs:73-128", "src/peers/connection/pending_pieces.rs:140-190"]}
{"id": "C109", "title": "A request that is not answered is repeated", "statement": "A request not answered within seven seconds is sent again when the downloader next looks for blocks, as long as its piece is assigned.", "quantifier": "for all histories of wake-ups and all states of the shared pieces", "why_tests_cant": "The failure needs sixteen timeouts in a row.", "anchors": ["src/peers/connection/downloader.rs:84-127", "src/peers/connection/pending_pieces.rs:140-169"]}
{"id": "C110", "title": "A downloader has at most sixteen requests open", "statement": "At any time at most ACTIVE_BLOCKS_PER_PEER = 16 requests to a peer are unanswered.", "quantifier": "for all histories of wake-ups and all piece lengths", "why_tests_cant": "A bound over all histories; depends on the piece length and on how a vector grows.", "anchors": ["src/peers/connection/downloader.rs:18,84-127", "src/peers/connection/pending_pieces.rs:140-169"]}
{"id": "C111", "title": "What is queued for a peer is written to it, whole and in order", "statement": "The bytes this client sends to a peer are its handshake followed by the messages queued for that peer, each whole, in the order of queueing, with nothing lost, repeated or added.", "quantifier": "for all runs of a connection: all messages queued at any time, all sizes of partial writes, all failures, whatever is read meanwhile", "why_tests_cant": "The kernel chooses how much each write takes and when it fails; a test sees a connection on which every write succeeds at once.", "anchors": ["src/peers/connection/connection_manager.rs:48-95", "src/peers/connection/handshake.rs:12-31"]}
{"id": "C112", "title": "What a peer sends after its handshake reaches the client", "statement": "The messages of a peer with an acceptable handshake are passed on in order, each as soon as its last byte is read, wherever the reads are cut, also if they come with the handshake; from a peer without one nothing is passed on but that it is unreachable, once.", "quantifier": "for all runs of a connection: all handshakes, messages, cuts into reads, interleavings with writing and ways to end", "why_tests_cant": "Depends on the segmentation of the first bytes and on interleavings of the two halves of the task.", "anchors": ["src/peers/connection/connection_manager.rs:48-173", "src/peers/connection/handshake.rs:12-31"]}
{"id": "C113", "title": "The shutdown signal ends a connection at any time", "statement": "Whatever a connection task is doing when the shutdown signal arrives, it ends.", "quantifier": "for all states a connection task can be in", "why_tests_cant": "The failing states need a peer that accepts a connection and stays silent.", "anchors": ["src/peers/connection/connection_manager.rs:48-77", "src/peers/connection/handshake.rs:12-31"]}
{"id": "C114", "title": "The piece check accepts exactly the pieces of the torrent", "statement": "The torrent's check of a downloaded piece says yes exactly if the blocks together have the length of that piece and its checksum; for an index outside the torrent it says no.", "quantifier": "for all torrents, indices and lists of blocks", "why_tests_cant": "Every piece length, last-piece length and way to cut data into blocks.", "anchors": ["src/transcoding/metainfo.rs: Torrent::_is_valid_piece", "src/macros.rs: unsigned_ceil_div"]}
{"id": "C115", "title": "Every place of a bucket is empty, good or bad", "statement": "At any time the places of a routing table bucket that are counted as empty, as good and as bad add up to the size of the bucket.", "quantifier": "for all buckets and times", "why_tests_cant": "Boundary instants and nodes that were never heard from.", "anchors": ["src/dht/routing_table/bucket.rs: Bucket::_count_bads, _count_empty, iter_over_goods"]}
{"id": "C116", "title": "Ports opened on the router are closed again", "statement": "A port that the client had the router open does not stay open after the client has ended or failed to start.", "quantifier": "for all routers and all later times", "why_tests_cant": "Needs a router and the time after the end of the program.", "anchors": ["src/gateway_device.rs: open_any_port", "src/main.rs: main"]}
{"id": "C117", "title": "A finished piece is whole", "statement": "When a piece is reported complete its blocks together are exactly as long as the piece: the piece length, or what is left of the torrent for the last piece.", "quantifier": "for all piece lengths, torrent lengths and histories of the set of pieces in flight", "why_tests_cant": "Every piece length against the block size, and every order in which blocks of several peers come in.", "anchors": ["src/peers/connection/pending_pieces.rs: PendingPieces::add_block_data, check_block_bounds", "src/torrent_manager.rs: TorrentManager::spawn"]}
{"id": "C118", "title": "A DHT message is treated as what it says it is", "statement": "A datagram is taken for a query, an answer or an error according to its type field, and a query for the method it names; ids are exactly 20 bytes, ports fit in 16 bits, peers are 6 bytes each and nodes 26. A datagram lacking a part of its kind is not treated as another kind.", "quantifier": "for all datagrams, states of the receive buffer and states of the DHT task", "why_tests_cant": "The parser tries the kinds of message one after the other on arbitrary nested data; tests give it one well-formed message of each kind.", "anchors": ["src/dht/krpc_message.rs: Message, Arguments, Response (untagged), Message::from_bytes", "src/dht/connection/connection_manager.rs: handle_query, handle_resp"]}
{"id": "C119", "title": "What was written to storage is read back", "statement": "A block read from storage consists of the bytes last written there by write_piece calls that returned, whatever other files were read or written in between, and once the program has nothing under way the files on disk hold every byte that was written.", "quantifier": "for all torrents, sequences of piece writes and block reads, instants of access, states of the disk, evictions from the handle cache and orders in which background writes finish", "why_tests_cant": "Writes are finished by background threads after write_all returns; the harmful order needs more than sixteen files and a slow disk, and tests see one fast order.", "anchors": ["src/fs/file_cache.rs: FileCache::get_entry, evict (tokio::fs::File dropped without flush)", "src/fs/multi_file_rw.rs: read_block, write_piece, write_file_chunk_from_multi_file_piece", "src/fs/single_file_rw.rs: read_block, write_piece"]}
{"id": "C120", "title": "Memory read as something else stays sound", "statement": "Where memory is reinterpreted (the bytes of the pieces field as hashes, the handshake as bytes, an id as machine words) only initialised bytes of the object itself are read, each at its place, and what was allocated is given back once with the size it was allocated with.", "quantifier": "for all vectors of bytes with any capacity, states of the heap, info hashes, peer ids, ids and byte orders of the machine", "why_tests_cant": "Undefined behaviour need not show in a test run: a wrong size passed to the allocator goes unnoticed with most allocators.", "anchors": ["src/transcoding/metainfo.rs: deserialize_pieces_field", "src/peers/connection/handshake.rs: Handshake::as_ref", "src/data_structures/id.rs: ID::weight"]}
{"id": "C121", "title": "The printed form of an identifier says which one it is", "statement": "The text printed for an identifier shows its first sixteen bits and then all twenty bytes in order, two upper-case digits each in groups of four, so that two identifiers are printed alike only if they are equal.", "quantifier": "for all pairs of identifiers", "why_tests_cant": "A test prints a few identifiers; two different ones printed alike would mislead whoever reads the log and need not be among them.", "anchors": ["src/data_structures/id.rs: impl fmt::Debug for ID"]}
{"id": "C122", "title": "The report about a cut message is true", "statement": "A message is reported as cut short exactly if the buffer holds less than its announced length, with both lengths, and the first five consecutive zero bytes of the buffer are within four bytes of the reported position; no position is reported exactly if there are none.", "quantifier": "for all buffers of at least four bytes", "why_tests_cant": "The search looks at every fifth position only; whether the stated tolerance covers what it skips depends on where the zeros are in a buffer of any length.", "anchors": ["src/peers/connection/message.rs: Message::from_buf"]}
{"id": "C123", "title": "A storage set-up that fails leaves the directories as they were", "statement": "If the directories of a multi-file torrent cannot all be created, exactly the directories that were there before are there afterwards: what was created is removed, and nothing else is.", "quantifier": "for all directory trees, torrents (whatever their names), orders in which the directories are created and points of failure", "why_tests_cant": "A clean-up deletes recursively; whether it can reach foreign directories, or leave some of its own, depends on names a test author would not think of and on failures that are hard to provoke.", "anchors": ["src/fs/multi_file_rw.rs: dir_builder::build_dir_tree", "src/fs/multi_file_rw.rs: dir_builder::create_dirs"]}
{"id": "C124", "title": "A piece goes to the least busy peer that has it", "statement": "The peer that is given a piece works on no more pieces than any other active, unchoked peer that announced it, and no peer ever works on more than four pieces.", "quantifier": "for all histories of the torrent manager and all orders in which peers are looked at", "why_tests_cant": "The choice comes from a nested search over two counters, one of which never moves; that its outcome is the minimum, and that the limit also holds for pieces marked again and again, is a statement over all histories.", "anchors": ["src/torrent_manager.rs: TorrentManager::sequential_select_piece", "src/torrent_manager.rs: TorrentManager::mark_piece_as_ongoing"]}
{"id": "C125", "title": "A client's address is filed under its own id", "statement": "However the DHT parts of any number of clients exchange messages with each other and with strangers, the routing table of a client, and the table it stores when it is shut down, list the address of a client only with that client's own id, provided the tables they started with did.", "quantifier": "for all networks of clients, all interleavings of their tasks, all losses, delays, repetitions and reorderings of datagrams and all datagrams of strangers (who cannot send from a client's address)", "why_tests_cant": "Ids are learnt from answers that are matched to queries by transaction number in one client and written by another; tests run one client against fixed messages.", "anchors": ["src/dht/connection/connection_manager.rs: message loop", "src/dht/dht_manager.rs: process_resp", "src/dht/routing_table/table.rs: RoutingTable::touch_node", "src/dht/krpc_message.rs: Message"]}
{"id": "C126", "title": "A client is remembered as a peer only for its own torrent and port", "statement": "If nobody else sends from a client's IP address, the other clients remember that IP address, for torrents other than their own, only for the client's torrent and with its TCP port.", "quantifier": "for all networks of clients, all interleavings, all losses, delays, repetitions and reorderings of datagrams and all datagrams of strangers", "why_tests_cant": "It connects the search task of one client with the store of another over an unreliable network; no test runs two clients.", "anchors": ["src/dht/peer_fetcher.rs: announce_peer", "src/dht/dht_manager.rs: store_new_peer", "src/dht/connection/connection_manager.rs: AnnouncePeer"]}
{"id": "C127", "title": "Nobody else is filed under the id of a client", "statement": "If no two clients have the same id, a routing table lists the id of a client only with that client's address.", "quantifier": "for all networks of clients, all interleavings, all losses, delays, repetitions and reorderings of datagrams and all datagrams of strangers", "why_tests_cant": "Needs a stranger that lies about its id and the right moment for it; tests use honest answers.", "anchors": ["src/dht/dht_manager.rs: process_resp", "src/dht/routing_table/table.rs: RoutingTable::touch_node"]}
{"id": "C128", "title": "Giving up on a peer frees exactly what it was asked for", "statement": "Cancelling the pending requests of a peer makes exactly the blocks asked for from that peer askable again and changes nothing else: blocks asked for from others, blocks that have arrived and the pieces stay as they are. Whoever takes blocks of these pieces next is given all of them, and no block that has arrived.", "quantifier": "for all reachable sets of pieces in flight, all peers, all later takers and all times", "why_tests_cant": "The code is dead (never called, marked TODO) and has no test; that cancelling one peer leaves the requests of all others alone needs states with several peers per piece.", "anchors": ["src/peers/connection/pending_pieces.rs: PendingPieces::cancel_pending", "src/peers/connection/pending_pieces.rs: PendingPieces::take_not_good_blocks"]}
{"id": "C129", "title": "No client ends the DHT of another", "statement": "In any network of clients whose own identifiers have 20 bytes, whatever a client sends by UDP, whenever and wherever it arrives and whatever strangers did before, the socket task of the receiver goes on. A running socket task ends only by a datagram of a stranger, by an error of its own socket, or because its own DHT task or peer search is gone.", "quantifier": "for all networks of clients, all interleavings, all losses, delays, repetitions and reorderings of datagrams, all datagrams of strangers and all states of the receive buffer", "why_tests_cant": "A wrong length of any identifier that one client writes (own id, refresh target made from random draws, info hash) makes the decoder of another abort; this spans two programs, the random refresh targets and left-over bytes in the receive buffer.", "anchors": ["src/dht/connection/connection_manager.rs: message loop", "src/dht/krpc_message.rs: Message", "src/data_structures/id.rs: ID deserialize", "src/dht/routing_table/table.rs: iter_over_ids", "src/data_structures/id.rs: randomize_after_bit"]}
{"id": "C130", "title": "The DHT of a client ends for four reasons only", "statement": "However the socket task, the DHT task and the peer search are interleaved and whatever messages arrive, the socket task and the DHT task of a client go on, and so does its peer search once begun, unless one of four things happens to that client: a datagram of a stranger on which decoding panics arrives, its socket fails, no connection is left that could tell of a DHT port, or shutdown is announced. Each of the four does end one of the two tasks.", "quantifier": "for all networks of clients, routing tables, peer tables, interleavings of the tasks, datagrams of strangers, losses, delays and repetitions, clocks and random draws of sufficient length", "why_tests_cant": "Any of the many unwraps behind the channels (response channel of the search, listener channel, bucket lookup, splitting, counting peers) would end a task; that none is ever reached depends on an invariant over all tasks, queues and the shared peer table.", "anchors": ["src/dht/connection/connection_manager.rs: message loop", "src/dht/dht_manager.rs", "src/dht/peer_fetcher.rs: spawn_fetcher", "src/dht/routing_table/table.rs: touch_node"]}
{"id": "C131", "title": "Stored nodes are asked first", "statement": "After the start the first queries sent are one ping to each node of the stored routing table, in table order, before any other query, whatever messages arrive meanwhile and however the tasks are interleaved; once the start is over and nothing waits to be sent, all of them have been sent.", "quantifier": "for all stored tables, peer tables, interleavings of the tasks, arriving messages and channel capacities", "why_tests_cant": "Start-up, the command channel, the socket task and the search run concurrently; that no other query overtakes the pings and none is lost is a statement about all interleavings and arbitrarily large tables.", "anchors": ["src/dht/dht_manager.rs: dht", "src/dht/connection/connection_manager.rs: message loop", "src/dht/peer_fetcher.rs: spawn_fetcher"]}
{"id": "C132", "title": "A client told of another can always get to know it", "statement": "In any network of clients, whatever happened before: a client that has nothing under way and is told the DHT port of another client whose socket task is ready can ping it, be answered and have touched the other's id at the other's address in its routing table, by steps of the two clients and the two datagrams alone; it then has nothing under way again, and nobody else is affected. With fewer than eight good nodes in its table it then knows the other. One after the other this works for any number of clients.", "quantifier": "for all networks of clients, all states reachable by any interleaving, loss, delay and repetition of datagrams and any datagrams of strangers, all pairs and lists of clients, all clocks", "why_tests_cant": "Crosses the port channel, DHT task, command channel, socket tasks of two programs, encoding and decoding in dirty receive buffers, the pending table and the routing table, from every reachable state rather than a fresh one.", "anchors": ["src/dht/dht_manager.rs: dht", "src/dht/connection/connection_manager.rs: message loop", "src/dht/connection/pending.rs", "src/dht/krpc_message.rs: Message", "src/dht/routing_table/table.rs: touch_node"]}
{"id": "C133", "title": "A round of peer search gets what a node remembers, and is remembered there", "statement": "In any network of clients, whatever happened before: a client with nothing under way whose search is between two rounds and has, among at most 496 nodes of which at most 15 gave it a token, a client of another torrent, can go through the next round by steps of the two clients and the datagrams between them alone. Afterwards it has as peers 216 of the peers of its torrent that the other remembered (what an answer holds; all, if they are no more), the other remembers it, at its TCP port, as a peer of its torrent, neither has lost a peer, both tables are unchanged, nobody else is affected and both have nothing under way again. The other must have something to answer with: a remembered peer of that torrent or a good node in its table.", "quantifier": "for all networks of clients, all states reachable by any interleaving, loss, delay and repetition of datagrams and any datagrams of strangers, all pairs of clients, all clocks, all token hash functions with 20-byte results", "why_tests_cant": "Crosses search task, command channel, two socket tasks, the pending table, token creation and check, the DHT task of the other client, encoding and decoding, from every reachable state and with any number of other nodes asked at the same time.", "anchors": ["src/dht/peer_fetcher.rs: fetch_peers, announce_peer", "src/dht/connection/connection_manager.rs: message loop", "src/dht/connection/pending.rs", "src/dht/dht_manager.rs: find_peers, store_new_peer", "src/dht/krpc_message.rs: Message"]}
{"id": "C134", "title": "Two clients of a torrent find each other through a client of another torrent", "statement": "In any network of clients, whatever happened before: if two clients of one torrent have nothing under way and the searches of both are between two rounds and have, under the conditions of C133, the same client of another torrent among their nodes, then by three rounds of search each of the two gets the TCP address of the other as a peer of its torrent, and nobody but the three is affected. The third may remember at most 214 peers of that torrent before.", "quantifier": "for all networks of clients, all states reachable by any interleaving, loss, delay and repetition of datagrams and any datagrams of strangers, all triples of clients, all clocks, all token hash functions with 20-byte results", "why_tests_cant": "The purpose of the DHT: needs the composition of both searches with the third client's memory over the whole protocol, from every reachable state.", "anchors": ["src/dht/peer_fetcher.rs: fetch_peers, announce_peer", "src/dht/dht_manager.rs: find_peers, store_new_peer", "src/dht/connection/connection_manager.rs: message loop", "src/dht/krpc_message.rs: Message"]}
{"id": "C135", "title": "Clients that start with nothing can find each other", "statement": "From the start of any network: two clients of one torrent and a client of another torrent, all three with empty routing tables, can come to a state in which each of the two has the TCP address of the other as a peer, although all they are ever told is the DHT port of the third client, and it the DHT port of one of them. In general, from every reachable state: a client with nothing under way, an empty table and no search begun, told of a client whose socket task is ready, begins its search with that client; two such clients of one torrent find each other through a client of another torrent that has nothing under way and remembers at most 214 peers of their torrent. Nobody but the three is affected.", "quantifier": "for all networks of clients, all states reachable by any interleaving, loss, delay and repetition of datagrams and any datagrams of strangers, all triples of clients, all token hash functions with 20-byte results", "why_tests_cant": "The whole life of a DHT participant from program start: ping of the told node, first entry in the routing table, start of the search from it, rounds of search, tokens, announcements and lookups, over three programs and the encoding.", "anchors": ["src/dht/dht_manager.rs: dht", "src/dht/peer_fetcher.rs: spawn, fetch_peers, announce_peer", "src/dht/connection/connection_manager.rs: message loop", "src/dht/routing_table/table.rs: touch_node, get_closest_nodes", "src/dht/krpc_message.rs: Message"]}
{"id": "C136", "title": "A peer search can walk from client to client", "statement": "From every reachable state of every network of clients: take a client with nothing under way whose search is between rounds, and a row of clients of other torrents with nothing under way, the first known to the search, each (but the last) remembering nothing for the searched torrent, with at most eight good nodes, none of them with the torrent's hash as id, and the next of the row among them, the last with something to answer. If the search has room for fifteen nodes and one token (of at most 511 and 16) for each client of the row, it can come to the end of the row: it then has the peers (the first 216 of each) any client of the row remembers for its torrent, and each of them remembers it as a peer. Nobody loses anything and nobody else is affected. Two clients of one torrent whose rows have one client in common can find each other, if the clients of one of the rows remember at most 214 peers of the torrent each.", "quantifier": "for all networks of clients, all states reachable by any interleaving, loss, delay and repetition of datagrams and any datagrams of strangers, all rows of any length the limits allow, all token hash functions with 20-byte results", "why_tests_cant": "Tests can set up one row of fixed nodes; this is about every reachable state of every network and every row: the routing tables' answers, the encoding of nodes, the growth of the search, tokens and announcements over several rounds.", "anchors": ["src/dht/peer_fetcher.rs: periodically_fetch_peers, fetch_peers, announce_peer", "src/dht/dht_manager.rs: get_peers, store", "src/dht/connection/connection_manager.rs: message loop", "src/dht/routing_table/table.rs: find_node", "src/dht/krpc_message.rs: Message"]}
{"id": "C137", "title": "Clients understand each other", "statement": "In every run of a network of clients, with any datagrams of strangers and any loss, delay, repetition and reordering: every datagram one client sends to another - questions, lookup results, peer lists, tokens, announcements, however large the tables have grown - has at most 2600 bytes, so the receiver's buffer never cuts it off, and whatever the buffer held before, the receiver reads it as exactly what the sender meant. No client's message to a client is ever discarded as unreadable.", "quantifier": "for all networks of clients (any ids, tables, peers), all runs with any datagrams of strangers, all contents of the receive buffer, all token hash functions with 20-byte results, all random choices of peers", "why_tests_cant": "A test encodes and decodes messages it made up; which messages a running client can come to send (how many nodes and peers an answer can list, which ids, ports, tokens and transaction ids of others it repeats) depends on everything that ever reached it and its partners.", "anchors": ["src/dht/connection/connection_manager.rs: message loop, BUF_LEN", "src/dht/dht_manager.rs: get_peers, find_node, store", "src/dht/krpc_message.rs: Message, rand_tid", "src/dht/peer_fetcher.rs: announce_peer"]}
{"id": "C138", "title": "The DHT works as long as the download does", "statement": "In the running client - manager, connections, downloaders, trackers and DHT together - as long as the torrent manager or at least one connection is there, the DHT socket does not fail and nobody presses Ctrl-C, both tasks of the DHT go on running, and so does the peer search once it has begun, whatever peers, trackers and DHT nodes send and in whatever order the tasks run. In particular a run without a message that ends the manager keeps manager, DHT and search running.", "quantifier": "for all torrents, tables, configurations and channel sizes, all interleavings of all tasks of the client, all messages of peers and trackers and all decoded DHT messages", "why_tests_cant": "A test of the DHT runs it without the rest of the client; that no interplay with connections coming and going, the shared peer table and the manager stops it is a statement about all schedules of the whole program.", "anchors": ["src/dht/dht_manager.rs: select loop", "src/dht/connection/connection_manager.rs: message loop", "src/peers/connection/connection_handle.rs: dht sender", "src/main.rs"]}
{"id": "C139", "title": "A connection is kept until it is given up", "statement": "Whatever order the manager's calls and the tasks run in: a peer has an open connection task exactly if the manager's last word about it was to connect (and then exactly one, however often it was connected and disconnected before); what the manager sends to the peer goes to that task and to no other; a download task ends only if its connection ended, the manager disconnected its peer, or a task panicked while it held the shared set of pieces; and after a disconnect the task can end at any moment.", "quantifier": "for all histories of connects, disconnects, messages, assignments, blocks, lost connections and turns of all tasks", "why_tests_cant": "A test connects one or two peers in one order; which of several tasks of the same peer is addressed after reconnecting, and that no interleaving ends or leaks one, concerns all histories.", "anchors": ["src/peers/connection/connection_handle.rs: connect, disconnect, send_*", "src/peers/connection/downloader.rs: manage_piece_downloader"]}
{"id": "C140", "title": "Downloaders running during a tick do not change what is assigned", "statement": "A tick of the torrent manager during which downloaders take turns, get blocks and lose connections and others use the table of peers leaves the manager in the state that one refresh of its peers and one undisturbed round of assignments leave it in, where some commands may have failed to reach their downloader; the connection handle gains connections to exactly the peers taken up; and while the manager lives the handle is connected to exactly the peers the manager had it connect to. So whenever the manager waits for messages, its state and the table of peers are those after some history of undisturbed refreshes and rounds with the same messages, table changes and ticks in the same order.", "quantifier": "for all histories of messages, ticks and table changes, and all interleavings of the tasks' steps with those of the tick", "why_tests_cant": "A test runs one schedule of the tasks; that no interleaving at the two waiting points of a tick changes the assignments concerns all of them.", "anchors": ["src/torrent_manager.rs: refresh_peer_list, start_downloading_new_pieces, start_downloading_piece", "src/peers/connection/connection_handle.rs: connect, download_piece"]}
{"id": "C141", "title": "A piece that is handed out always finds room", "statement": "In the running torrent the pieces whose blocks are collected are, at every moment, exactly the pieces the manager counts as being downloaded. They are never more than nine, also after the manager has ended, so the limit of ten open pieces is never met and a piece that is handed out is always among them afterwards. (A failure there would go unnoticed, since the result of adding the piece is thrown away.)", "quantifier": "for all runs of the torrent manager with its connections and downloaders: all messages, ticks, block arrivals and interleavings", "why_tests_cant": "two lists kept by different owners under different limits (nine and ten) have to agree in every interleaving; a test sees a few of them, and the ignored error leaves no trace when it happens", "anchors": ["src/torrent_manager.rs: start_downloading_new_pieces, mark_piece_as_ongoing", "src/peers/connection/pending_pieces.rs: add_piece", "src/peers/connection/connection_handle.rs: download_piece"]}

# Formal model of Nargun (kdufla/Nargun) — design

Subject: the Rust sources in /repo (read as text only). Everything below is in
Rocq/Coq 8.16.1, under `rocq/theories`, logical prefix `Verif`.

## Conventions

* **Bytes** are `Coq.Init.Byte.byte`; `u16/u32/u64` are `N` with explicit
  range side conditions and explicit `mod 2^k` where Rust truncates (`as u32`).
* **usize / lengths / indices** are `nat` (unbounded): a 64-bit index never
  overflows in the modelled code except where the code subtracts below zero;
  each such subtraction is modelled as a checked subtraction that yields
  `Panic` (debug build) and, where the release build would continue with a
  wrapped value, the release behaviour is modelled too. Large constants
  (`BLOCK_SIZE = 2^14`) are opaque definitions.
* **Panics** (`unwrap` on `Err`, out-of-range index or slice, `todo!()`,
  `panic!`, failed checked arithmetic) are a distinct outcome
  `Panic` of `res A := Val a | Fail | Panic`; `Fail` is an `Err(_)`.
* **HashMap** is an association list with distinct keys. Iteration order is not
  specified by Rust, so every theorem about an operation that iterates
  quantifies over all orders (the list is any permutation of the contents).
* **Time** is a natural number read from the environment; `Instant::elapsed` is
  truncated subtraction.
* **SHA-1** and the random generator are parameters: section variables that
  turn into universal quantifiers (for randomness: all draws).
* **Async tasks**: each task is a state machine `step : state -> event ->
  state * outputs`; the scheduler and the network are the universally
  quantified list of events.
* Files come in groups: `XModel.v` (definitions, each with file:line in
  /repo), `XSpec.v` (independent specification vocabulary), `XProofs.v`,
  and `XProps.v` (only the property theorems, their `Print Assumptions`, and an
  `Example` showing that the hypotheses are met by a concrete case).

If the English property is false of the code, the theorem
`Cnn_..._refuted` gives a concrete witness, `Cnn_..._partial` proves what does
hold, and the section "Disagreements" below records it.

## Plan per property

| id | modelled | how it is proved |
|----|----------|------------------|
| C01-C04 | `data_structures/bitmap.rs` completely | byte sweep (256 x 8) lifted to lists; spec = list of booleans |
| C05-C11 | `data_structures/id.rs` (bit ops, prefix order, first diff, randomise, Ord, xor, weight) | bits of the 160-bit big-endian integer; weight by lane decomposition |
| C12 | `transcoding/mod.rs`, `peers/peer.rs` codecs, `Node::from_compact_bytes` | big-endian lemmas |
| C13, C14 | `peers/connection/message.rs` | case analysis on messages; exact characterisation of panicking buffers |
| C15, C16, C60 | `manager_receiver` loop over arbitrary reads | induction over reads with an invariant on the buffered prefix; `C15_reads` and `C16_until_error` (EventProps.v) say the same for a list of reads that succeed or fail: what came before the first failure is delivered in order, nothing after it |
| C17 | `handle_message`, `TryFrom<Message>` | case analysis over sequences |
| C18, C61 | `handshake.rs` | layout lemma; info-hash check and segmentation refuted |
| C19-C22 | `pending_pieces.rs` | invariants over histories; permutation induction; `C22_exact` from the shape of the vector's capacity (a power of two times the first) |
| C128 | `cancel_pending` of pending_pieces.rs:128-138, which nothing calls | pointwise description of all blocks, then C22 for what is taken next (CancelProps.v) |
| C23, C24 | `downloader.rs: foo`, `From<BlockAddress> for Request`, `piece_hash` | case analysis, SHA-1 abstract |
| C108-C110 | the loop of `downloader.rs` over all wake-ups (RequestSpec.v) | invariant over histories (counter, assigned pieces, everything in the list requested); C22 for what is taken; the limit of 16 repetitions by an invariant of a lone downloader |
| C111-C113 | one connection task from connect to end: handshake, both halves, partial and failing writes, shutdown (LinkModel.v) | invariants over runs: what was written against what was queued, what was passed on against what was read (with C15's lemmas) |
| C114-C116 | functions the program does not call: `metainfo.rs: _is_valid_piece`, `bucket.rs: _count_bads, _count_empty`; `gateway_device.rs` (SpareModel.v) | direct case analysis; the lengths by arithmetic on the number of blocks. SpareExactProps.v: the piece check in each case, exactly which genuine pieces it accepts, and exactly when the kinds of places fill a bucket |
| C117 | the set of pieces in flight and downloader lives of C20-C23 | every stored block has passed the length check, by induction over reachable sets (`preach_fitting`); then the lengths of the blocks are summed |
| C118 | the deserializers of KRPC messages (`KrpcModel.v`) against a reading of bencoded values written as relations (`ReadSpec.v`) | each reader returns exactly what its relation says (`*_val`), alternatives by `orelse_first`, bytes by C39, panics by C43; refuted in full |
| C25-C28 | `peers/active_peers.rs` | multiset reasoning for every iteration order |
| C29-C33 | `torrent_manager.rs` | inductive invariants over histories; `SaidProps.v` reads who is choking and who has what off the history (`C31_history`); `BusyProps.v` says what is selected in any state, whatever the counts of workers per piece are (`C32_selected`, `C32_none_selected`) |
| C34-C36 | `fs/multi_file_iter.rs`, `multi_file_rw.rs`, `single_file_rw.rs` over an in-memory disk | range lemmas, induction over write orders |
| C37 | `fs/file_cache.rs` | invariant over histories |
| C119 | file handles with background writes over the handle cache, the event sequences of `write_piece` and `read_block` (`FileModel.v`); `FileSpec.v` says what plain files would do | any interleaving of program events, finishing writes and hash map orders: with at most 16 files no handle is dropped (`few_run`); in general every write is done, under way or orphaned (`track_run`) and writes to different bytes commute; joined to C35/C36 by `C119_multi_partial`, `C119_single`; refuted beyond 16 files; `C119_exact`: a read sees all writes to the file except those under way in dropped handles |
| C120 | a heap with allocation sizes and uninitialised bytes, vectors over it, the life of a `pieces` field, `repr(C)` layout, words of either byte order (`MemModel.v`) | `C120_exact`: the life of a field is defined exactly if the spare room is a multiple of 20; no spare room in the program; the results equal those of `MetainfoModel.v` and `WireModel.v`, whose simplifications are thereby justified |
| C121, C122 | the printed form of an identifier and the report about a message that is cut short (`DiagModel.v`); number formatting from the documentation of the standard library | `C121_shows`: what stands at every position, from which two identifiers printed alike are equal; `C122_exact`: which position is reported (DiagProps.v) |
| C123, C69 | the clean-up after a failed directory set-up, with an arbitrary predicate for failures from outside (`CleanModel.v`; without it the set-up of `DirsModel.v`, `C123_same_set_up`) | what is removed is at or below a directory that was not there before, so by the tree condition nothing older; with ordinary names everything created is below it (CleanProps.v). For all names: exactly what stays behind, by induction over the paths created (`C123_exact`, SpareExactProps.v). Removal is taken to succeed; files and other processes are not modelled |
| C38 | directory list construction in `multi_file_rw.rs`, path resolution (DirsModel.v) | sortedness + prefix closure; `EscapeProps.v`, for all names: a resolved path is where its names lead (`lead`, defined without the tree), and it stays in the directory exactly if no beginning of it has more `..` than names |
| C39, C40 | own model of the bencode subset used through `bendy`, `krpc_message.rs` | structural induction; decode after encode |
| C41-C43, C74-C77 | `dht/connection/{pending,connection_manager}.rs`, receive buffer included | the pending table refines a function of the history (`outstanding`); decoding totality by cases |
| C73 | `krpc_message.rs` writers | equation with the BEP 5 layout spelled out; `C73_sent` says the same of the queries and answers the socket task builds |
| C50 | `dht_manager.rs` `store_new_peer`, `find_peers` | invariant over histories of the DHT task relating its maps to the announced peers; refuted in full; `C50_own_exact` (ServedProps.v) gives the answer for our own torrent and its effect on the peer table exactly |
| C78 | the answers of the DHT task as bytes | length arithmetic over the encoder; exact size in `AnswerProps.v`; refuted in full |
| C79 | `manage_dht`, `receive_resp` | invariant: the table is reachable and its nodes come from answers |
| C80 | `find_peers` on the shared peer table | via `C25_good_peers`; exactly what is marked in `AnswerProps.v`; refuted in full |
| C82, C83 | the loop of `dht` with `spawn_fetcher` (TaskModel.v) | from C47, C49 and the invariants of the DHT task |
| C51, C81 | `peer_fetcher.rs` whole loop | inductive invariant over histories with arbitrary reordering of both maps; sorting lemma; witness history of 13 answers for the refutation |
| C44-C47, C49 | `dht/routing_table/{bucket,table}.rs` | inductive invariant over histories |
| C48, C72 | bincode layout of the routing table (own model of bincode fixint) | codec round trip; decoders are monotone in their input, so no proper prefix is accepted; each reader accepts exactly the encodings of fine values (`LoadProps.v`), aborts by the same decomposition; use of a loaded table by an invariant over touches |
| C71 | `touch_node` over histories | invariant over histories; refuted |
| C62-C64 | `pending_pieces.rs`, `downloader.rs: foo` | concrete histories (refutations), case analysis; C62 also by an invariant of every history: never more blocks held than counted, always fewer counted than a piece has |
| C65-C67 | `torrent_manager.rs` | invariants over histories, refutations; `ManagerHistoryProps.v` says from the history alone which peers are contacted (`C66_exact`), which pieces are active and who works on them (`C67_exact`, `C67_working`) |
| C124, C65 | selection and assignment of `torrent_manager.rs` (`SpreadProps.v`) | the peer found is the one at the least count; number of pieces per peer as an invariant over histories; induction over one round of assignments; `RoundProps.v` reduces a round to a small game on the peers that offer the first wanted piece and solves it: `C65_told` lists who is told, `C65_exact` says exactly when nobody is told twice |
| C68-C70 | `single_file_rw.rs`, `multi_file_rw.rs`, `active_peers.rs` | in-memory disk; refutations |
| C52, C53 | `tracker/announce.rs` (TrackerModel.v, AnnounceProps.v, UrlProps.v) | byte sweep; an independent percent decoder and query parser as specification |
| C54, C84 | `tracker/tracker_manager.rs` as a state machine over answers, failures, timers, completions and shutdown (SessionProps.v) | inductive invariant over histories; refutation by a concrete history |
| C55, C56 | `tracker/response.rs`, `transcoding/metainfo.rs` over bencode values | case analysis, chunk lemmas |
| C57 | `shutdown.rs` over a model of tokio broadcast/mpsc | state machine invariant |
| C58, C87, C88 | `connection_handle.rs` with all downloader tasks, the shared pieces behind a mutex that can be poisoned, `ChokeLocker`/`UnchokeWaiter` (ConnModel.v) | invariants over all interleavings; refutations by concrete histories |
| C89, C90, C91, C92, C93, C83 | the whole DHT: socket task, DHT task and peer search joined by their five bounded channels, each task stopping while it waits (DhtSysModel.v) | invariants and counting over all schedules; the deadlock is built for every table and all capacities; `C89_wait_ends_partial` constructs the way out of every other wait; SearchLockProps.v lets the search take its steps too: every wait of the DHT task ends or one of two cycles has come (`C89_wait_resolves`, by a measure on what the socket task and the search have in hand), and the second cycle, through the peer search, is permanent (`C89_search_forever`) and is built from the start; `C90_exact` (HoldUpExactProps.v) is the same for the socket task taking the next datagram; C92 (DhtRouteProps.v) counts per requester what is taken, queued, in the socket task's hands and pending against what was sent; `C83_once_in_all` lifts C83 to all schedules |
| C105, C106 | the same model of the whole DHT (DhtSysModel.v); what was heard and from whom is read off the history (DhtAskSpec.v) | one invariant over tables, channels, phases and pending queries, parameterised by the sets of known nodes, tokens and queries sent, which grow with the history (DhtAskProps.v); refutation by a run with a silent second round |
| C125-C127 | a network of any number of such DHTs, each at its own address, with strangers (NetModel.v); datagrams are encoded and decoded, may be lost, repeated and reordered; strangers cannot send from a client's address. The socket is bound to an IPv4 address, so there are no IPv6 senders; a failed `send_to` is only logged, which is a lost datagram | one invariant over all hosts and all datagrams sent, parameterised by what may be filed and what may be remembered (NetProofs.v); decoding what a client sent into any receive buffer gives back what it meant (`read_enc`) |
| C129 | the same network | what each client can ever send is tracked through its tasks (every find_node target has 20 bytes: made from the table's own id by flipping a bit and overwriting a tail, NetSafeProps.v `aims`); decoding it never panics (`safe_kmsg`, from C43); a case distinction over all steps gives the causes |
| C130 | the system of DhtSysModel.v (three tasks, channels, shared peer table) and the network of NetModel.v | invariant `well` (DhtLifeProps.v): both tasks run, the table is reachable, no peer twice, queues hold well-formed items, and whatever is on its way to the search (commands, pending requests, responses) means there is a search; every step keeps it unless fatal. `C118_sizes` says that whatever is decoded is well-formed; C129 that clients' datagrams are decoded; `C130_fatal` is the converse |
| C131 | the system of DhtSysModel.v | invariant (PingFirstProps.v `Inv`): queries sent, those waiting in the socket task, those in the command channel and those the starting DHT task has still to send, one after the other, are exactly the pings; later the pings stay in front. Transaction ids are left open (`erase`) |
| C132 | the network of NetModel.v | the schedule is given (NetMeetProps.v `meet_run`): tell, take, send, check, take command, send datagram, receive, answer, receive, pass on, take. Each step is enabled by what a client that still works satisfies (`working_well`, from C130); decoding is exact in any receive buffer (`ping_read`, `pong_read`); C46 gives `C132_known` |
| C133 | the network of NetModel.v | the schedule is given (NetFindProps.v `round_run`): tick, one command per node (`flush_run`), the query arrives, the other looks up and answers (`serve_run`), the answer arrives and is passed to the search (`hear_search`), the round ends, announcements go out (`announce_in`), the one to the other arrives with its own token and is stored (`store_run`). That the keys of what is remembered are distinct and the peers fit their encoding comes from an invariant (`working_map`) |
| C134 | the same | C133's round three times: first, second, first client |
| C135 | the network of NetModel.v | NetBootProps.v: C132's schedule with more said about its end (`meet_full`): an empty table then holds exactly the other (`touch_empty`), the check after the turn finds a good node and starts the search from the closest nodes, which is that one (`closest_one`); whoever answers, the table has a good node then (`touch_good`), so the third client has an answer; then C134 |
| C136 | the network of NetModel.v | NetWalkProps.v: one round of the search (C133's `round_run`, which also says which nodes the search has then, `after`) for each client of the row; a client with at most eight good nodes names them all (`leads_names`, from C47), so the next of the row is among the nodes for the next round; induction over the row (`walk_run`). For two searches: the first walks its row, the second its own up to the first client both have, which then remembers the first, and the first asks that one again |
| C137 | the network of NetModel.v; transaction ids are drawn with two bytes (krpc_message.rs:109-111), TCP ports have 16 bits | invariant `talk` (NetTalkProps.v): everything a client holds - table, remembered peers, queues, commands - is well-formed, what it repeats to a client (transaction ids, tokens) came from that client and has the length a client gives it; `asks` and `aims` (C105, C129) say what it asks. Answers list at most 15 nodes or 216 peers, so no datagram exceeds 2600 bytes (some do exceed 1300: C78), and `C40_round_trip_partial` reads it back |
| C138 | the whole client of ClientModel.v; DHT messages arrive decoded (datagrams that make decoding panic are C130's), the generator gives a refresh enough random bits | invariant `well` of C130 carried through all steps of the client (ClientDhtProps.v); the DHT task's other reason to end, that nobody can tell it of ports any more, needs `deserted`: manager and all connection tasks gone, which is final. `C138_harmless` combines it with C94 |
| C139 | handle and download tasks (ConnModel.v), tasks numbered in the order they were started | invariant: the map of the handle lists exactly the open tasks (`book`), by cases over all steps; with C87 (nothing is ever requested) a turn can only fail in a way that poisons the shared set (ConnEndProps.v) |
| C140 | `TorrentModel.v` against the undisturbed round of `ManagerModel.v` | simulation: what is left of the round by phase (`rest`), and the handle's map against the manager's list as an invariant (TickProps.v); with it C29-C33, C65 and C124, stated on undisturbed rounds, apply to every interleaving with downloaders, connections and users of the table (the order of the map is taken to stay the same during one tick); `LiftProps.v` does this once for all: `C140_history` gives, for every run of the torrent, a history of the manager alone with the same messages, ticks and table changes and with the same state up to the order of the maps, so every theorem about `sys_reach` holds of the running torrent between ticks (`C140_reach`); `C124_running` is one instance |
| C141 | `TorrentModel.v`: the shared set of pieces against the manager's bitmap | invariant over all steps (OpenProps.v), with the one of TorrentProps.v; nine by counting the set bits |
| C107 | tracker sessions (TrackerModel.v), time as a parameter of every event | a potential: requests made times k plus the start of the current phase against the clock, with one request owed for each unread completion and the last, and k - 64 for every failure (RateProps.v) |
| C94, C95 | the whole client (ClientModel.v): torrent manager, connection tasks, downloaders, DHT, tracker sessions and `main`, joined by channels that close when their last holder ends | the end of everything after one `cancel` is constructed from every state; steps after it by an invariant; the way to the exit is constructed from every state that is neither C89 nor C90; `C95_exact` (SearchLockProps.v): from every state the way leads to the exit or to one of the two standstills of C89, from which there is none |
| C96-C99, the parts of C94 and C95 that hold | the same model | inductive invariants over all runs: peers in the table and on the way there come from `named` events (ClientOriginProps.v), active peers against connections (ClientInvProps.v), successful handshakes against places (ClientSlotProps.v), what has ended when `main` returns and what waits in the table (ClientEndProps.v); `C94_exact`: a step ends the manager iff it takes a message of the kinds `C33_exact` lists, or hands out a piece after some downloader panicked inside the lock, and `C94_blame` names the connection (ClientFatalProps.v) |
| C100-C102 | `TorrentModel.v`: manager (ManagerModel.v) on top of handle and downloaders (ConnModel.v); a tick is cut at its two waiting points so that downloaders run in between; what peers send is arbitrary; a panic of the manager drops the handle | one invariant over all runs (`tinv`): nothing requested (C87), manager invariant (C29), phase of the tick against the state of the handle; C102 by induction on rounds left and queue length, and for every schedule by a measure that no event but the tick increases; `TorrentExactProps.v`: exactly the steps that end the manager (over `tinv` and the exact form of C33) and exactly the turns that poison the lock. Simplified: a block for a downloader that has ended is dropped by the program (the failed send is ignored, connection_manager.rs:152-154); in the model it waits in a queue nobody reads, which nothing else sees |
| C87, C101, C139 | one turn of a download task in any state (TurnProps.v): `C87_turn`, `C101_poisoned_turn`, `C101_turn_poisons`, `C139_turn_sends` | by cases; these also bind the parts of `dl_turn` and `after_turn` that the program never reaches because no owner is set |
| C66 | the running torrent (`TorrentModel.v`), OnceProps.v: `C66_running` | the peers of all downloaders ever started have no repetition and are the keys of the handle's map while the manager lives: invariant over all steps, the handle never disconnecting |
| C29, C30, C31 | the running torrent (`TorrentModel.v`) at every moment, also in the middle of a tick (QueueProps.v): `C29_running`, `C30_running`, `C31_told`, `C31_waiting` | invariant of TorrentProps.v; for the command queues by cases over all steps on the list of (peer, queue) of the downloaders, with the map of the handle as an invariant |
| C103, C104 | `StartModel.v`: the start of `main.rs` from the bytes of the torrent file to the client of ClientModel.v; what a session computes is TrackerModel.v | counting the pieces that are missing (ReportSpec.v) against the announce; invariant over all runs of the client: every session holds the configuration it was given and the counter it was given; C56 for what the file says |
| C59, C85 | `capped_growing_interval.rs` over binary64, and its use in the `select!` of the DHT task | float order lemma against multiples of 2^-1074, induction over ticks/turns; `C85_exact` says which turns refresh, from the number of refreshes before; refutation by induction |
| C86 | as C56 | from C56; for every total length, piece length and list of hashes a file that says so is built and accepted (ConsistencyProps.v) |

## Trusted base

* The Coq 8.16.1 kernel, `vm_compute`, and the standard library.
* What `Print Assumptions` prints after each theorem (target: "Closed under
  the global context" everywhere).
* The hand transcription of the Rust functions (each definition cites the
  lines it transcribes).
* Own models of third-party behaviour: bincode fixint layout, bendy's bencode
  (token grammar) and serde's untagged-enum rule "first variant that decodes",
  `urlencoding::encode_binary`, reqwest (asks for the URL as given), tokio channels, `HashMap`, slices, `sort_by`
  (stable), files as byte arrays, tokio `fs::File` (one background write per handle, waited for by the
  next operation on it, not by a drop; FileModel.v), tokio `broadcast`/`mpsc` as used by `shutdown.rs`,
  `f64` as the standard library's `SpecFloat` (`powf(3.0)` as two multiplications),
  `select!` (drops the losing futures).
  Text (`str::from_utf8`) is specified separately: `Utf8Spec.v` says a string is
  text if it is the concatenation of the encodings of Unicode scalar values, and
  `utf8_ok_iff` proves that the model's byte-by-byte checker accepts exactly that;
  the property statements use the specification.

Not modelled: logging, `config.rs`, the UPnP protocol (what the router grants is a
parameter of `open_any_port`, SpareModel.v, and the port it opened, or its failure, one of `main_start`),
real sockets and timers, memory exhaustion, usize overflow above 2^64. For C120 it
is trusted that a `Vec` made from a slice has no spare room and that a struct with
the one field `[u8; 20]` has its size and alignment.

## Mutation log

`seeded/LOG.jsonl` holds one line per wrong program tried. `first_broken_lemmas`
are the sentences whose proof no longer compiles; `theorems_failed` is the set of
theorems that depend on one of them, so it over-approximates the theorems that
are false of the wrong program.

## Disagreements between the English properties and the code

| id | what the code does instead | witness theorem |
|----|----------------------------|-----------------|
| C03 | padding bits of a received bitfield are counted by `weight` | `C03_bitmap_weight_refuted` `C03_exact`: too high by exactly the padding bits that are set. |
| C10 | `Ord for ID` returns `Equal` at the first bit set in both, so it only orders bit lengths | `C10_id_order_refuted` `C10_exact`: right exactly for equal ids and ids of different bit length. |
| C14 | a piece message with declared length 1..8 makes `from_buf` slice out of order: five bytes from a peer abort the task | `C14_parse_no_abort_refuted` |
| C16 | a message above 16512 bytes (bitfield of a big torrent) is never delivered; end of stream (`Ok(0)`) spins for ever | `C16_progress_refuted`, `C16_stops_at_eof_refuted`; every larger message does so: `C16_too_large_always` |
| C18 | `check_validity` never looks at the info hash | `C18_handshake_info_hash_refuted` |
| C60 | an unknown message id drops everything buffered behind it | `C60_unknown_skipped_refuted`; always, and exactly what: `C60_rest_lost_always`, `C60_one_read_always` |
| C61 | a handshake reply delivered by TCP in two segments is rejected | `C61_handshake_segmentation_refuted` |
| C20, C21 | the expected length of the last block is `piece_length % BLOCK_SIZE`, which is 0 for every piece length that is a multiple of 16384: the genuine last block is refused and an empty block is accepted instead, and nothing else | `C20_full_last_block_refuted`, `C20_last_block_always`, `C21_multiple_refuted`; such a piece never completes, in whatever order its blocks come (`C21_multiple_always`, ArrivalProps.v) |
| C20 | `pending -= 1` on a counter that is never incremented: with overflow checks the first accepted block aborts | `C20_debug_abort_refuted` |
| C22 | `set_owner_peer` is never called, so taking blocks unwraps `None`; expired blocks are skipped when the buffer is exactly full | `C22_no_owner_refuted`, `C22_full_buffer_refuted` |
| C24 | requests always ask for 16384 bytes, beyond the end of a shorter last block | `C24_last_block_refuted`; a request stays within the piece exactly if its block is a full one (`C24_exact`) |
| C62 | a second copy of a block is counted again; the piece "completes" with blocks missing and collecting them aborts; whenever one block is missing a second copy of any other aborts, and a piece with a block counted twice is never reported complete however the history goes on | `C62_duplicate_block_refuted`, `C62_aborts_always`, `C62_never_completes_always` |
| C63 | `AddBlockRes::Added => todo!()` | `C63_refuted`; exactly when: `C63_exact` (BlockExactProps.v), the task goes on iff the block is the last one missing |
| C64 | outstanding requests are matched by block number only, so a refused block of one piece re-queues another piece's request | `C64_other_piece_refuted`; `C64_requeued_always` says exactly which request goes back, for every list of outstanding requests |
| C26 | a peer in use is handed out again | `insert`/`extend` overwrite the status of a known peer with `Unknown` (active_peers.rs:34-36, 128-137), so the next batch contains it; `get_good_peers` ranks `Active` first (55-60). `C26_not_handed_out_again_refuted`, `C26_good_peers_in_use_refuted`. What a peer's status is and whom a batch holds is said exactly from the history alone (`C26_status_exact`, `C26_exact`, PeersHistoryProps.v). |
| C28 | asking "enough peers?" has a side effect | `has_enough_peers` is implemented with `get_good_peers(usize::MAX)` (active_peers.rs:47-52), which marks every reachable peer `Active`; later batches find nobody. `C28_enough_no_side_effect_refuted`, for every table `C28_marks_all_always`. |
| C30 | availability counts become too high | when an active peer is learnt again it goes back to `Unknown`, is handed out in the next batch, and `refresh_peer_list` (torrent_manager.rs:144-149) overwrites its `PeerInfo` without lowering the counts. `C30_exact_refuted`; the counts are never too low (`C30_never_too_low`). For every history the count is the number of holders plus the number of announcements forgotten that way (`C30_account`), only such a refresh forgets any (`C30_forgotten`), and the error never shrinks (`C30_never_repaired_always`). |
| C32 | starvation | `sequential_select_piece` (215-244) looks only at the first missing piece with a non-zero count (the per-piece peer counts never change). If its only holders choke us, nothing is requested. `C32_starvation_refuted`. |
| C33 | remote abort of the torrent manager | `Request`, `Cancel` hit `todo!()` (296-298); `Have` beyond the piece count indexes out of bounds (286-287); a finished piece hits `todo!()` too. `C33_remote_abort_refuted` and the `_always` theorems; `C33_exact` lists all events at which it aborts. |
| C65 | the same piece is requested nine times from one peer in one tick | nothing in selection excludes a piece the peer already works on, and setting an already set bit leaves the weights unchanged (152-184). `C65_distinct_assignments_refuted`, `C65_again_next_tick_refuted`. |
| C66 | a peer is contacted at most once per program run | `connection.peers` entries are never removed by the manager (`disconnect` has no caller), so `connect` returns early on every retry (connection_handle.rs:107-126). `C66_contacted_once_always`, `C66_exact`, `C66_retry_refuted`. |
| C67 | slots of active pieces leak | `mark_peer_as_inactive` does not clear `active_pieces` (302-312). `C67_slots_never_freed_always`, `C67_active_piece_has_worker_refuted`; no other way to lose the worker while nobody announces active peers anew: `C67_worker_partial`. |
| C35 | if the file length is a multiple of the piece length, the last piece is never written although `Ok` is returned | `write_last_piece` writes `length % piece_length` = 0 bytes (single_file_rw.rs:82-109). `C35_single_refuted`; in every such case: `C35_last_piece_always`. |
| C36 | an empty file at the start of a piece panics (`file_end - 1` underflows), at an inner block boundary the write fails, at the very end it is never created | multi_file_rw.rs:94-134. `C36_multi_refuted`, `C36_boundary_refuted`, `C36_trailing_refuted`; `C36_edge_always`, and `C36_exact`: on an empty disk these are the only failures. |
| C38 | path components from the torrent are not checked: a name containing `../` is written outside the torrent's directory; a component `..` panics | multi_file_rw.rs:54, 77, 169-190. `C38_escape_refuted`, `C38_dotdot_refuted`; `C38_exact` says which torrents stay inside. |
| C68 | reading beyond the end of a multi-file torrent returns `Ok` and whatever the buffer held | multi_file_rw.rs:39-66. `C68_multi_refuted`, `C68_multi_beyond`; exactly what is returned: `C68_multi_clipped_always`, `C68_multi_data_always`. |
| C69 | a second start of the same multi-file torrent panics | `create_dirs` refuses an existing directory and `new` unwraps (multi_file_rw.rs:24-26, 157). `C69_resume_refuted`. |
| C46 | eight nodes in our half of the own bucket keep nodes of the other half out, although a split would make room | `id_within_bucket_range` asks `first_diff > depth` where `>=` is meant (bucket.rs:117-122). `C46_admitted_refuted`. |
| C47 | up to 15 nodes are returned; closer nodes in unvisited buckets are missed; order is by leading differing bit only; a stale exact match is returned | table.rs:88-118, 130-171, id.rs (ordering of ids). `C47_too_many_refuted`, `C47_closer_missed_refuted`, `C47_order_refuted`, `C47_exact_stale_refuted`. |
| C71 | a node that moved keeps its old address | `touch_node` refreshes only the time of a known id (table.rs:120-128). `C71_addr_refuted`. `C71_exact`: it is the address of the touch with which the node last came into the table; `C71_moved_always`. |
| C72 | a damaged routing table file can abort start-up or load a table without buckets | `ID`'s `Deserialize` asserts the length; no check after decoding (table.rs:35-46). `C72_damaged_refuted`; exactly which files abort: `C72_aborts_exact`; which accepted tables abort when used: `C72_usable_exact`, `C72_deep_refuted`. |
| C40 | an announce answer decodes as a ping answer; a list of exactly one node decodes as an exact hit | untagged alternatives are tried in order and `Ping` precedes `AnnouncePeer` (krpc_message.rs:65-86); `Nodes` is told apart by length only (345-393). `C40_refuted`. |
| C43 | one datagram with an id, info hash or target of another length than 20 kills the DHT socket task | `ID`'s `Deserialize` asserts the length. `C43_refuted`; exactly which datagrams do so: `C43_exact` over `deadly` (CrashSpec.v). |
| C74 | a short (even empty) datagram is completed by the bytes of an earlier one | `manage_udp` discards the received length and decodes the whole buffer (connection_manager.rs:59-62). `C74_refuted`. `C74_buffer_exact` says what the buffer holds after any datagrams, `C74_exact` which datagrams depend on it. |
| C75 | anybody can answer in the place of the node asked | `handle_resp` looks only at transaction id and kind. `C75_refuted`; `C75_exact` says when an answer is passed on. |
| C76 | answers to announces, and find_node answers with a token, are dropped | consequence of C40 and of the kind check in `PendingRequests::get`. `C76_refuted`, `C76_token_refuted`. `C76_exact` and `C76_kind_exact` say which datagrams reach a requester, by their bytes. |
| C77 | unanswered queries are kept for ever | nothing but a matching answer removes an entry (pending.rs). `C77_refuted`; `C77_exact` and `C77_count_exact` say which are kept and how many. |
| C50 | a lookup returns at most 216 announced peers; announced peers of our own torrent we failed to connect to are never returned | dht_manager.rs `find_peers`; `get_good_peers` skips `UnableToConnect`. `C50_too_many_refuted`, `C50_unreachable_refuted`. |
| C78 | a lookup can be answered with 216 peers, over 1700 bytes, although the limit is meant to keep within 1300 | `DHT_MTU / COMPACT_PEER_LEN` ignores the bencode overhead of 2 bytes per peer and of the rest of the message. `C78_fits_refuted`. |
| C80 | one get_peers query for our own torrent from anybody marks up to 216 peers as active, after which the torrent manager is given no peers | `find_peers` calls `get_good_peers`, which activates (dht_manager.rs, active_peers.rs:55-60). `C80_starvation`, `C80_lookup_harmless_refuted`. |
| C51 | trimming the search set can forget a closer node and keep a farther one of the same kind | the sort uses the ordering of ids, which compares bit lengths only (C10). `C51_trim_refuted`. |
| C53 | an announce URL that already has a query (`?passkey=…`) gets a second `?`; a tracker id is pasted into the URL unescaped | announce.rs `as_url`. `C53_url_refuted`, `C53_tracker_id_refuted`; `C53_exact`: these are the only exceptions. |
| C84 | shut down while an announce is in flight or between retries, the session ends without "stopped" | the `select!` around the announce ends the task on shutdown. `C54_stopped_refuted`; the last announce says "stopped" exactly if the session was idle when told to stop (`C84_exact`). |
| C84 | a torrent that claims 2^64 bytes or more crashes its tracker session at the start | `pieces_count * piece_length` in u64. `C54_opens_refuted`, exactly when: `C84_opens_exact`. |
| C57 | a receiver cloned after the signal never receives it, so waiting for shutdown hangs until its holder ends by itself | `broadcast::Sender::subscribe` starts at the tail (shutdown.rs). `C57_late_copy`. |
| C85 | the DHT never refreshes its routing table while messages arrive more often than the current wait (3 s at first) | `select!` drops the pending tick whenever another branch wins, and the next turn starts the sleep anew (dht_manager.rs:51-67). `C85_refresh_refuted`. |
| C86 | a torrent with piece length 0, or with fewer hashes than its length needs, is accepted | metainfo.rs checks neither, nor any other combination. `C86_unchecked_always`, `C56_consistent_refuted`, `C56_piece_length_refuted`. |
| C58 | choke messages never reach the downloader: `ChokeLocker` drops the futures it makes, and `wait_if_choking` is called nowhere | connection_handle.rs:51-59. The property holds only because of C87; `C58_owner_set_refuted`, `C58_waiter_stuck`; `C58_waiter_exact` says when the waiter would return. |
| C87 | no block is ever requested: the first turn of a download task with an assigned piece panics (`copy_owner.unwrap()`) while holding the mutex, and the next `download_piece` then panics the torrent manager | `set_owner_peer` is called nowhere. `C87_requested_refuted`, `C87_turn_fatal`, `C87_exact`, `C87_nothing_requested`. |
| C88 | no message is ever sent to a peer after the handshake | the torrent manager calls none of the send functions. `C88_silent`. |
| C89 | the socket task waits for room in the query/response channel while the DHT task waits for room in the command channel: both for ever, and the shutdown signal is not looked at. The same through a third task: the socket task waits for the search, the search and the DHT task for the socket task | `C89_no_deadlock_refuted`, `C89_any_capacity`, `C89_search_lock_refuted` |
| C90 | responses for the peer search go through a channel of 64; while the search sleeps between rounds (up to 120 s) the 65th stops the socket task | `C90_search_independent_refuted`, `C90_held_up`; nothing else of the search does: `C90_goes_on_partial` (HoldUpProps.v) |
| C93 | the table is written only in the shutdown branch; `?` on any error leaves without writing | `C93_kept_refuted`, `C93_other_end_loses` |
| C94 | one `cancel` (or `request`, or `have` out of range) from one peer ends the torrent manager (C33); with it close the command channels of all downloaders, which panic; with them close the writing halves of all connections; with those the port channel, at which the DHT ends without storing its table. Only the trackers go on | `C94_survives_refuted`, `C94_cascade`, `C94_for_good` |
| C95 | after Ctrl-C during the DHT deadlock (C89) `main` waits for ever | `C95_exit_refuted` |
| C98 | when a connection ends after the handshake (read error, panic) nobody tells the torrent manager (`Disconnected` is never sent, `disconnect` never called), so its place is never given back: at most ten handshakes succeed in the life of a client, and after the tenth it never connects to anybody again | `C98_makes_room_refuted`, `C98_ten_in_a_lifetime`, `C98_for_good` |
| C99 | a `get_peers` query for our own info hash between a tracker's answer and the manager's next look marks the peers of the answer as in use (C80); they are not connected to | `C99_named_connected_refuted`; exactly whom a look connects to: `C99_exact` (ClientPickProps.v, by an invariant that every peer with a status other than waiting or in use was connected to before) |
| C100 | no run of manager and downloaders ever holds a piece: `set_owner_peer` is never called, so blocks are never requested, and unrequested blocks are ignored | `C100_nothing_always`, `C100_seeded_refuted` |
| C101 | the downloader that takes its first turn with an assigned piece panics inside the lock; the next piece the manager starts with a living downloader (of a second seeder, or of the same one if the panic falls between command and `add_piece`) panics the manager, and the client ends (C94) | `C101_honest_refuted`, `C101_one_seeder_refuted` |
| C103 | `left` counts the last piece as a full one; the counter of downloaded pieces (`main.rs:69`) is never increased and the completion channel never sent on, so every announce of every run says nothing was downloaded and everything is missing | `C103_left_refuted`, `C103_progress_refuted`, `C103_constant` |
| C104 | `udp://` trackers are parsed and then ignored (`tracker_manager.rs` only takes the HTTP ones) | `C104_all_trackers_refuted` |
| C106 | tokens are kept for ever: `announce_peer` takes the token of any node that ever gave one, also if the node was asked again since and stayed silent | `C106_fresh_refuted` |
| C107 | `min interval` is decoded and never looked at; an `interval` of 0 makes the session announce again at once, without end | `C107_pause_refuted`, `C107_flood_refuted` |
| C108 | the first wake-up with an assigned piece panics (C87) | `C108_refuted` |
| C109 | a request that expires is pushed again while its first entry stays in the list; when the list has exactly its 16 places (or a doubled capacity) the pass over expired requests is skipped (pending_pieces.rs:164), so a block that is lost 16 times is never requested again | `C109_refuted`, `C109_gives_up_always` |
| C110 | `ACTIVE_BLOCKS_PER_PEER` is only the initial capacity of a vector that grows: a piece of n blocks leads to n requests at once | `C110_refuted`; exactly which requests are open (pieces up to 4 GiB, so that offsets fit in the message): `C110_exact`, `C110_count`, `C110_silent` (RequestExactProps.v, an account kept from the events and the requests sent alone) |
| C111 | a write that fails in the middle of a message is only logged (connection_manager.rs:91-93); the next message is written after the torn one, and the peer reads the two as something else | `C111_written_refuted` |
| C112 | the handshake is taken from one read (handshake.rs:23): a peer whose handshake arrives in two counts as unreachable | `C112_heard_refuted` |
| C113 | the `select!` with the shutdown signal starts after the handshake (connection_manager.rs:72), which has no timeout: a peer that accepts the connection and says nothing keeps the task for ever | `C113_shutdown_refuted`, `C113_deaf_always` |
| C114 | `_is_valid_piece` (metainfo.rs:64-68) asks for blocks of exactly 16384 bytes and the block count of a full piece, so it never accepts a shorter last piece | `C114_refuted`, `C114_short_always`; an index outside the torrent panics (`C114_index_always`). Not called by the program |
| C115 | `_count_bads` (bucket.rs:145-159) counts nodes heard from more than 15 minutes ago, good ones were heard from less than 15 minutes ago; nodes never heard from (from a saved table or a `nodes` string) are neither | `C115_kinds_refuted`; what the rest is: `C115_kinds_partial`. Not called by the program |
| C116 | the router is asked for ports without limit of time (lease 0, gateway_device.rs:16-30), and nothing ever gives them back; if the second is refused the first stays open though the client does not start | `C116_refuted`, `C116_left_open_always`, `C116_half_open_always` |
| C117 | the length of the last block does not depend on which piece it is, and is 0 for multiples of 16384: full pieces of such torrents are reported one block short, and a shorter last piece of the torrent as long as a full one | `C117_multiple_always`, `C117_last_piece_always`, `C117_collision_always`, `C117_whole_refuted` |
| C118 | a query is treated by the shape of its arguments: its name and type are never looked at, unknown methods are answered as ping, an announcement with a port over 65535 is answered as get_peers | untagged enums in krpc_message.rs. `C118_name_always`, `C118_type_always`, `C118_any_name_always`, `C118_proper_refuted` |
| C119 | a handle evicted from the cache is dropped with its last write unfinished, and the reopened file does not wait for it: a block just written reads as missing or old, and of two writes of a byte the older can win | no `flush` in src/fs; `C119_read_back_refuted`, `C119_stored_refuted`, `C119_missing_always` |
| C120 | `deserialize_pieces_field` divides the capacity by 20, so a vector with other spare room is given back with a wrong size (undefined behaviour); its only caller passes a vector without spare room | metainfo.rs:387-393; `C120_room_refuted`, `C120_life_partial` |
| C122 | the search for "five consecutive zeros (+-4)" looks at positions divisible by five only, so the position reported can be arbitrarily far behind the first five zeros, or missing | message.rs:89-98; `C122_far_refuted`, `C122_missed_refuted`, `C122_exact` |
| C123 | a directory created outside the torrent's own (name `../e`) stays after a failed set-up | multi_file_rw.rs:160-163 removes the working directory only; `C123_left_behind_refuted` |
| C127 | a stranger that is asked can answer with the id of a client and is filed under it | nothing ties an id to an address (dht_manager.rs:205-220); `C127_own_address_refuted` |

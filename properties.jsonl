{"id": "C01", "title": "Datapoint wire round trip", "statement": "A datapoint (or error point) built from any data that fits, written with lk_write and followed by any further bytes, is read back by lk_read as a point with the same type, hash and data, and the bytes returned as the rest are exactly the bytes that followed.", "quantifier": "every data byte string the builder accepts, every network header, every suffix of trailing bytes", "why_tests_cant": "The input space is every byte string up to 65020 bytes followed by any bytes; a test can only try a handful of lengths and paddings.", "anchors": ["crates/pkt/src/builder.rs try_datapoint_ref/errorpoint_ref", "crates/pkt/src/read.rs read_pkt", "crates/linkspace/src/lib.rs lk_read/lk_write"]}
{"id": "C02", "title": "Linkpoint wire round trip", "statement": "A linkpoint built from any group, domain, space, links, data and create stamp that fit, written with lk_write and followed by any bytes, is read back by lk_read with every one of those fields unchanged and the rest returned untouched.", "quantifier": "every combination of fields accepted by the builder and every suffix of trailing bytes", "why_tests_cant": "The product of all field values, number of links, space shapes and data sizes is unbounded for testing purposes.", "anchors": ["crates/pkt/src/builder.rs try_linkpoint_ref/linkp", "crates/pkt/src/point_ptr.rs", "crates/pkt/src/read.rs read_pkt"]}
{"id": "C03", "title": "Keypoint wire round trip", "statement": "A keypoint signed with any key is read back by lk_read with the same fields and the signer's public key; this needs only that a signature made by a key verifies under that key's public key.", "quantifier": "every signing key, every accepted field combination, every trailing suffix, every hash and signature scheme whose signatures verify", "why_tests_cant": "It ranges over all keys and field values and over the signature scheme itself.", "anchors": ["crates/pkt/src/builder.rs try_keypoint_ref", "crates/pkt/src/point_ptr.rs signed", "crates/pkt/src/netpkt/netpkt_ptr.rs check"]}
{"id": "C04", "title": "A point accepted by lk_read is authentic and well formed", "statement": "If lk_read accepts a buffer, the returned point's hash is the hash of its content bytes, its type is one of the four known types, a keypoint carries a signature valid for its public key over the hash of the content before the signature, its links, space and data partition the content exactly, and the packet is a prefix of the buffer.", "quantifier": "every input byte string", "why_tests_cant": "An attacker chooses the bytes; no finite set of malformed inputs covers all ways of being malformed.", "anchors": ["crates/pkt/src/read.rs read_pkt", "crates/pkt/src/netpkt/netpkt_ptr.rs check", "crates/pkt/src/point_ptr.rs internal_consitent_length"]}
{"id": "C05", "title": "lk_read never panics and never reads outside the packet", "statement": "For every input byte string lk_read returns either a packet or an error: it does not slice outside the declared packet and does not panic.", "quantifier": "every input byte string", "why_tests_cant": "Absence of an out-of-bounds access on adversarial input is a universal claim over all byte strings.", "anchors": ["crates/pkt/src/read.rs read_pkt", "crates/pkt/src/point_ptr.rs fixed/tail", "crates/pkt/src/point.rs PointHeader::check"]}
{"id": "C06", "title": "Builders enforce the size limits exactly", "statement": "A builder succeeds if and only if the requested content fits the documented maximum; when it succeeds the declared size equals the number of bytes written and no offset or size field is truncated.", "quantifier": "every field combination, of any size", "why_tests_cant": "Boundary behaviour depends on the sum of three independent sizes and 16-bit fields; all combinations must be considered.", "anchors": ["crates/pkt/src/builder.rs", "crates/pkt/src/point.rs", "crates/pkt/src/lib.rs MAX_CONTENT_SIZE"]}
{"id": "C07", "title": "calc_free_space is what the builder accepts", "statement": "calc_free_space(space, links, data, signed) is non-negative exactly when the corresponding (key or link) point can be built, and equals the number of data bytes that can still be added.", "quantifier": "every space, link list, data and signed flag", "why_tests_cant": "It relates two functions on all inputs, including those at the size limit.", "anchors": ["crates/pkt/src/builder.rs calc_free_space", "crates/pkt/src/builder.rs try_keypoint_ref"]}
{"id": "C08", "title": "Streams of packets decode unambiguously", "statement": "The concatenation of any list of written packets is decoded by repeated lk_read into exactly that list, and every strict prefix of a packet is reported as needing more bytes rather than as a bad or different packet.", "quantifier": "every finite list of valid packets and every cut point", "why_tests_cant": "Quantifies over all lists of packets and all cut points.", "anchors": ["crates/pkt/src/read.rs read_pkt", "crates/pkt/src/lib.rs Error::requires_more"]}
{"id": "C09", "title": "Stream decoding does not depend on how bytes arrive", "statement": "Decoding packets from a reader gives the same packets however the byte stream is split into read calls.", "quantifier": "every packet list and every chunking of its bytes", "why_tests_cant": "The number of chunkings is exponential in the stream length.", "anchors": ["crates/common/src/pkt_reader.rs NetPktDecoder"]}
{"id": "C10", "title": "The private group never crosses an I/O boundary by accident", "statement": "With allow_private=false, lk_write, lk_read and the stream decoder never emit or return a point in the private group, and they accept every other valid point.", "quantifier": "every packet and every input byte string", "why_tests_cant": "It is a confidentiality claim about all packets.", "anchors": ["crates/linkspace/src/lib.rs lk_read/lk_write", "crates/pkt/src/netpkt/mod.rs check_private", "crates/common/src/pkt_reader.rs"]}
{"id": "C11", "title": "Point content determines the fields", "statement": "Two points built by the API with the same content bytes (and hence the same hash) have the same group, domain, space, links, create stamp, data and public key.", "quantifier": "every pair of buildable points", "why_tests_cant": "Injectivity is a statement about all pairs of inputs.", "anchors": ["crates/pkt/src/builder.rs", "crates/pkt/src/point_parts.rs"]}
{"id": "C12", "title": "Space names round trip through their components", "statement": "Building a space from a list of components and iterating it returns the same list; iterating any valid space and rebuilding it returns the same bytes.", "quantifier": "every list of components and every byte string", "why_tests_cant": "Unbounded component contents and counts.", "anchors": ["crates/pkt/src/space.rs SpaceBuf::try_from_iter/iter", "crates/pkt/src/space.rs CheckedSpaceIter"]}
{"id": "C13", "title": "Space validation accepts exactly the documented spaces", "statement": "A byte string is accepted as a space if and only if it is a concatenation of length-prefixed components each of 1 to 200 bytes with total size at most the maximum; building from components fails exactly when one of these limits is broken.", "quantifier": "every byte string and every component list", "why_tests_cant": "An if-and-only-if over all byte strings.", "anchors": ["crates/pkt/src/space.rs Space::from_slice/check_components/try_push"]}
{"id": "C14", "title": "Rooting a space preserves its components", "statement": "The rooted form of a space has the same components in the same order, and its offset table gives for each depth the start of that component.", "quantifier": "every space", "why_tests_cant": "All spaces, including those with more components than the table has slots.", "anchors": ["crates/pkt/src/space.rs try_into_rooted", "crates/pkt/src/rooted_space.rs"]}
{"id": "C15", "title": "A validated rooted space has a truthful offset table", "statement": "If a byte string passes rooted-space validation then its depth byte is the number of components and every offset points at the matching component, so that comp(i), the space0..space7 fields and range agree with iterating the space.", "quantifier": "every byte string passing validation", "why_tests_cant": "Adversarial offsets; all byte strings.", "anchors": ["crates/pkt/src/rooted_space.rs check_components/comp/range", "crates/pkt/src/field_ids.rs SpaceComp"]}
{"id": "C16", "title": "Space prefix tests mean component prefixes", "statement": "starts_with holds between two spaces if and only if the first one's component list begins with the second one's, and strip_prefix returns exactly the remaining components; no byte-level coincidence can make a non-prefix match.", "quantifier": "every pair of spaces", "why_tests_cant": "All pairs; a coincidence of length bytes and content bytes is the failure mode.", "anchors": ["crates/pkt/src/space.rs starts_with/strip_prefix"]}
{"id": "C17", "title": "Space editing operations act on the component list", "statement": "push, push_front, extend, prepend, pop/split_last/split_first and truncate_last on a space have the same effect as the corresponding list operations on its components, and a failed operation leaves the space unchanged.", "quantifier": "every space and every operand", "why_tests_cant": "All spaces and all operands, including at size limits.", "anchors": ["crates/pkt/src/space.rs try_push/try_push_front/try_prepend/truncate_last/split_last"]}
{"id": "C18", "title": "Tree index order is the logical order", "statement": "Comparing two tree keys byte by byte orders points by group, then domain, then depth, then space, then public key; two points have equal tree keys only if these are all equal, and each field can be read back from the key.", "quantifier": "every pair of points with valid spaces", "why_tests_cant": "An order isomorphism over all pairs, including spaces that are byte prefixes of each other.", "anchors": ["crates/pkt/src/netpkt/tree_order.rs TreeKey/TreeEntry", "crates/core/src/env/tree_key.rs"]}
{"id": "C19", "title": "Packet comparison is a total order consistent with identity", "statement": "The packet comparison used for sorting is reflexive, antisymmetric up to equal tree entry or hash, transitive and total.", "quantifier": "every pair and triple of packets", "why_tests_cant": "Ranges over all triples.", "anchors": ["crates/pkt/src/netpkt/cmp.rs", "crates/pkt/src/netpkt/tree_order.rs"]}
{"id": "C20", "title": "Adding a predicate is intersection", "statement": "After adding any sequence of tests (=, <, >, mask0, mask1, ?) to a predicate set, a value is accepted if and only if it satisfies every test in the sequence; in particular the order in which statements are added does not matter.", "quantifier": "every sequence of tests, every value, every integer width", "why_tests_cant": "Unbounded sequences and all values of 8 to 256 bit integers.", "anchors": ["crates/core/src/predicate/value_test.rs TestSet::add/test", "crates/core/src/predicate/exprs.rs"]}
{"id": "C21", "title": "A printed predicate set re-parses to the same set", "statement": "The rules listed for a predicate set, added to an empty set, give back a set that accepts the same values.", "quantifier": "every predicate set reachable through the API", "why_tests_cant": "All reachable sets of all widths.", "anchors": ["crates/core/src/predicate/value_test.rs rules/unpack", "crates/core/src/query.rs to_str"]}
{"id": "C22", "title": "Seeking to the next member of a predicate set is exact", "statement": "For a set built from bounds and bit masks, the next-member computation used to skip through the database returns the smallest member that is not below the given value, and reports none only if there is none.", "quantifier": "every non-contradictory set, every start value, every integer width", "why_tests_cant": "All bit patterns of masks of any width.", "anchors": ["crates/core/src/predicate/value_test.rs Mask::overflowing_in_set/TestSet::info"]}
{"id": "C23", "title": "A query that can never match is rejected", "statement": "try_add (and so lk_query_push/lk_query_parse) reports an error if and only if the resulting predicate set is empty.", "quantifier": "every sequence of tests", "why_tests_cant": "Emptiness of the intersection of arbitrary sequences of tests.", "anchors": ["crates/core/src/predicate/value_test.rs try_add/has_any/Bound::try_combine", "crates/core/src/query.rs"]}
{"id": "C24", "title": "Compiled predicates equal interpreted predicates", "statement": "The compiled form of a predicate set accepts exactly the values the set accepts, and a set that accepts everything compiles to nothing.", "quantifier": "every set and value", "why_tests_cant": "All sets and all values.", "anchors": ["crates/core/src/predicate/value_test.rs compile_stest", "crates/core/src/predicate/test_pkt.rs"]}
{"id": "C25", "title": "Saving keeps the three tables consistent", "statement": "After any history of save calls (with any clock behaviour, duplicates and batches), the log is strictly increasing in receive stamp, every stored packet occurs in it exactly once, the hash index maps each stored hash to the log position of that very packet and nothing else, and the tree index holds exactly one entry for each stored link and key point and none for data points.", "quantifier": "every finite history of save batches and every sequence of clock readings", "why_tests_cant": "Invariant over all histories; the state space is infinite.", "anchors": ["crates/core/src/env/lmdb/save.rs", "crates/core/src/env/lmdb/db.rs"]}
{"id": "C26", "title": "Saving is idempotent and reports newness truthfully", "statement": "lk_save returns true exactly when the packet was not stored before; saving a stored packet again changes nothing; lk_save_all returns the number of distinct new packets and the receive stamps of the new packets are exactly the returned range.", "quantifier": "every history and every batch, including batches containing duplicates", "why_tests_cant": "All histories and batches.", "anchors": ["crates/core/src/env/lmdb/save.rs", "crates/linkspace/src/lib.rs lk_save/lk_save_all_ext"]}
{"id": "C27", "title": "Saving is atomic under crashes", "statement": "If the process dies at any point of a save call the reopened database contains either all of the batch's new packets or none of them, and is consistent.", "quantifier": "every history, batch and crash point", "why_tests_cant": "Every crash point of every history.", "anchors": ["crates/core/src/env/lmdb/save.rs", "crates/core/src/env/lmdb/db.rs"]}
{"id": "C28", "title": "Saved packets are never lost or altered", "statement": "Once saved, a packet can be read by its hash with exactly the same content, whatever is saved afterwards.", "quantifier": "every later history", "why_tests_cant": "Ranges over all future histories.", "anchors": ["crates/core/src/env/lmdb/save.rs", "crates/core/src/env/lmdb/get.rs read"]}
{"id": "C29", "title": "A save with a valid new packet succeeds", "statement": "Saving a new packet succeeds whatever the system clock says, including when it stands still or runs backwards.", "quantifier": "every history and every clock reading", "why_tests_cant": "Depends on coincidences between the clock and the last stored stamp.", "anchors": ["crates/core/src/env/lmdb/save.rs", "crates/core/src/env/lmdb/db.rs"]}
{"id": "C30", "title": "Hash queries are exact", "statement": "A query in hash order returns exactly the stored packets accepted by the predicates, once each, in increasing hash order, limited to the selected result indexes.", "quantifier": "every database state and predicate set", "why_tests_cant": "All database contents and all predicates.", "anchors": ["crates/core/src/env/lmdb/queries.rs query_hash"]}
{"id": "C31", "title": "Log queries are exact", "statement": "A query in log order returns exactly the stored packets accepted by the predicates (including the receive-stamp predicates), in ascending or descending receive order.", "quantifier": "every database state, predicate set and direction", "why_tests_cant": "All database contents and predicates.", "anchors": ["crates/core/src/env/lmdb/queries.rs query_log2", "crates/core/src/stamp_range.rs", "crates/core/src/env/lmdb/get.rs log_range"]}
{"id": "C32", "title": "Tree queries only return matching packets", "statement": "Every packet returned by a tree query is stored and satisfies every predicate of the query.", "quantifier": "every database state and predicate set", "why_tests_cant": "All database contents and predicates.", "anchors": ["crates/core/src/env/lmdb/queries.rs query_tree", "crates/core/src/env/lmdb/tree_iter.rs"]}
{"id": "C33", "title": "Tree queries return every matching packet", "statement": "A tree query returns every stored link and key point that satisfies its predicates.", "quantifier": "every database state and predicate set", "why_tests_cant": "Completeness of a skip-scan over all contents.", "anchors": ["crates/core/src/env/lmdb/tree_iter.rs set_pointer_at_match", "crates/core/src/env/tree_key.rs"]}
{"id": "C34", "title": "Tree queries terminate", "statement": "Every tree query over a finite database reaches its end.", "quantifier": "every database state and predicate set", "why_tests_cant": "Termination over all inputs.", "anchors": ["crates/core/src/env/lmdb/tree_iter.rs set_pointer_at_match"]}
{"id": "C35", "title": "Result-index predicates select by position", "statement": "The index predicates (i, i_branch, i_db, i_new) select exactly the results whose zero-based position is in the given set, and stop once no later position can match.", "quantifier": "every result sequence and index set", "why_tests_cant": "All sequences and all sets.", "anchors": ["crates/core/src/predicate/value_test.rs MembershipIter/iter_contains", "crates/core/src/env/lmdb/queries.rs"]}
{"id": "C36", "title": "A watch sees every matching packet exactly once, in order", "statement": "Over any interleaving of saves and lk_process calls, a registered watch that keeps returning 'continue' is called once for each matching packet stored after registration, in receive order, and for no other packet.", "quantifier": "every interleaving of saves by any writers with process calls", "why_tests_cant": "All schedules.", "anchors": ["crates/common/src/runtime/rx.rs process", "crates/core/src/matcher/mod.rs trigger"]}
{"id": "C37", "title": "A watch covers history and future without gap or overlap", "statement": "lk_watch followed by processing calls the callback exactly once for each matching packet, whether it was stored before the watch (the database scan) or after it.", "quantifier": "every database state, every later history", "why_tests_cant": "The hand-over point between scan and log processing under all schedules.", "anchors": ["crates/common/src/runtime/rx.rs watch/process"]}
{"id": "C38", "title": "Watches end exactly when they can no longer match", "statement": "A watch is removed when its callback breaks, when its receive-stamp upper bound has passed, or when its index bounds are exhausted; until then it stays registered.", "quantifier": "every sequence of packets and every watch query", "why_tests_cant": "All packet sequences.", "anchors": ["crates/core/src/matcher/mod.rs WatchEntry::test/trigger/gc"]}
{"id": "C39", "title": "At most one watch per query id", "statement": "After any sequence of registrations and stops the watch list is strictly ordered by query id, a registration replaces the watch with the same id, and lk_stop(id) removes exactly that id.", "quantifier": "every sequence of operations", "why_tests_cant": "All operation sequences.", "anchors": ["crates/core/src/matcher/mod.rs register/deregister/get"]}
{"id": "C40", "title": "Range stop removes every watch with the prefix", "statement": "lk_stop(id, range=true) stops every watch whose query id starts with id.", "quantifier": "every set of registered watches and every prefix", "why_tests_cant": "All watch sets.", "anchors": ["crates/core/src/matcher/mod.rs deregister", "crates/linkspace/src/lib.rs lk_stop"]}
{"id": "C41", "title": "Text escaping round trips for all bytes", "statement": "Every byte string, printed as ABE text, parses back to exactly the same byte string, and the printed form contains only printable ASCII and no unescaped control characters.", "quantifier": "every byte string", "why_tests_cant": "All byte strings.", "anchors": ["crates/abe/src/abtxt.rs as_abtxt/parse_abtxt/next_byte"]}
{"id": "C42", "title": "Printed expressions re-parse to the same expression", "statement": "Printing a normalised ABE expression and parsing it gives the same expression; parsing any accepted text and printing it gives text that parses to the same expression.", "quantifier": "every expression of any nesting depth", "why_tests_cant": "Unbounded nesting.", "anchors": ["crates/abe/src/ast.rs parse_abe_strict_b/Display"]}
{"id": "C43", "title": "Encoders produce text that evaluates to the input", "statement": "Whenever an encoder (a, b, u8..u128, b2, b16, s, ...) produces an expression for some bytes, evaluating the expression yields exactly those bytes.", "quantifier": "every byte string and every encoder", "why_tests_cant": "All byte strings.", "anchors": ["crates/abe/src/eval.rs encode_abe", "crates/abe/src/scope/uint.rs", "crates/abe/src/scope/bytes.rs", "crates/byte-fmt/src/lib.rs"]}
{"id": "C44", "title": "Fixed size byte formats round trip", "statement": "Tags, domains (AB), hashes and keys (B64), and big and little endian integers print and parse back to the same value; padding and cutting to a size keeps the documented side.", "quantifier": "every value of every size", "why_tests_cant": "All values.", "anchors": ["crates/byte-fmt/src/lib.rs", "crates/byte-fmt/src/endian_types.rs"]}
{"id": "C45", "title": "Byte-slice functions follow their documentation", "statement": "slice, cut, padding, replace and the saturating big-endian addition and subtraction terminate on every input without panicking and compute the documented result.", "quantifier": "every byte string and argument", "why_tests_cant": "All inputs.", "anchors": ["crates/abe/src/scope/bytes.rs", "crates/core/src/predicate/uint.rs"]}
{"id": "C46", "title": "Setting a header field sets it", "statement": "Applying a header mutation 'field = value' makes that routing header field equal to the value and leaves other fields unchanged; mask mutations set or clear exactly the given bits; the content hash is never affected.", "quantifier": "every header and mutation sequence", "why_tests_cant": "All headers and sequences.", "anchors": ["crates/core/src/mut_header.rs", "crates/pkt/src/netpkt/header.rs"]}
{"id": "C47", "title": "The pairwise group is symmetric and private only for oneself", "statement": "Two parties compute the same pairwise group from their own and the other's key; it is the private group if and only if both keys are equal, and different partners give different groups.", "quantifier": "every pair of keys", "why_tests_cant": "All keys.", "anchors": ["crates/common/src/protocols/mod.rs unicast_group"]}
{"id": "C48", "title": "Handshake agreement", "statement": "If the server accepts phase 2 then it comes from the holder of the key in phase 0, links to the server's own phase 1 packet, and both sides agree on the pairwise group; an honest exchange within the clock tolerance is always accepted.", "quantifier": "every pair of keys, all packets an attacker can present, every clock skew within tolerance", "why_tests_cant": "All adversarial packets.", "anchors": ["crates/common/src/protocols/handshake.rs"]}
{"id": "C49", "title": "Name claims carry their expiry and tags faithfully", "statement": "The expiry written into a claim is the one read back, tag helpers never overlap the expiry, and updating a reverse-lookup entry keeps exactly the unexpired other links in order with the new link first or last as requested.", "quantifier": "every claim, tag, link list and clock value", "why_tests_cant": "All link lists.", "anchors": ["crates/common/src/protocols/lns/mod.rs", "crates/common/src/protocols/lns/admin.rs mut_ptrlookup_entry", "crates/common/src/protocols/lns/claim.rs"]}
{"id": "C50", "title": "Name resolution picks the claim with most votes or reports a tie", "statement": "Given the votes found for a name, the resolver returns the unique best claim, and reports a tie whenever two best claims are equal, independent of the iteration order of its hash map.", "quantifier": "every multiset of votes and every iteration order", "why_tests_cant": "All orders of a hash map and all vote sets.", "anchors": ["crates/common/src/protocols/lns/public_claim.rs walk_live_claims"]}
{"id": "C51", "title": "Names and spaces are inverse", "statement": "A name printed and parsed is the same name; the claim space of a name determines the name; local names live in the private group and all others in the public group.", "quantifier": "every name", "why_tests_cant": "All component lists.", "anchors": ["crates/common/src/protocols/lns/name.rs"]}
{"id": "C52", "title": "The process bus value is monotone and no wake-up is lost", "statement": "Under any interleaving of emits by any number of threads and processes the bus value of a process never decreases, an emit returns at least its value and leaves the process at no less, no process has a value nobody emitted, and once everything is delivered and nothing was lost all processes have the largest emitted value. A thread that has registered to wait is woken if the value grows. (That reading the value and then waiting misses nothing is refuted.)", "quantifier": "every number of processes and threads, every interleaving of their atomic steps, every delivery order, with and without losses", "why_tests_cant": "All schedules.", "anchors": ["crates/ipcbus/src/udp_procbus.rs _emit, next_deadline, init", "crates/ipcbus/src/inotify.rs _emit"]}
{"id": "C53", "title": "Stamp arithmetic never wraps", "statement": "Adding or subtracting durations to stamps saturates or reports an error and never wraps around.", "quantifier": "every stamp and duration", "why_tests_cant": "All 64-bit values.", "anchors": ["crates/pkt/src/lib.rs stamp_add/stamp_sub/checked_stamp_add", "crates/core/src/stamp_fmt.rs"]}
{"id": "C54", "title": "Duplicate filter never forgets a recent packet and never invents one", "statement": "The quick duplicate filter reports a hash as seen only if it was inserted, and reports it as seen when it was the last hash inserted in its slot.", "quantifier": "every sequence of hashes and every capacity", "why_tests_cant": "All sequences.", "anchors": ["crates/common/src/pkt_stream_utils.rs QuickDedup"]}
{"id": "C55", "title": "The html form of a packet is safe to paste and says what the packet is", "statement": "Whatever a packet holds, its html form is one closed element whose tags and attribute names depend only on the kind of the packet and the numbers of its links and components; its attribute values tell every field; escaped text has no angle bracket and no ampersand that starts anything but a reference, and is shown as the original text.", "quantifier": "every packet (any bytes in group, domain, space, tags and data), every table of character references", "why_tests_cant": "All byte strings in all fields at once, and every table of references.", "anchors": ["crates/pkt/src/repr.rs: PktFmt::to_html, fmt_b64, EscapeHTML", "crates/abe/src/scope/bytes.rs"]}
{"id": "C56", "title": "No space with more than eight components", "statement": "A space has at most 8 components (the documented maximum depth): whatever sequence of constructors and edits succeeds, the resulting space has at most 8 components.", "quantifier": "every component list, every byte string given to the validating constructor, every successful edit", "why_tests_cant": "Each constructor and edit checks (or forgets to check) the depth separately; a test covers a few depths of a few constructors.", "anchors": ["crates/pkt/src/space.rs: from_slice, try_push, try_push_front, try_prepend, extend_from_iter", "crates/pkt/src/consts.rs: MAX_SPACE_DEPTH"]}
{"id": "C57", "title": "Rerouting changes only the network header", "statement": "Replacing the network header of a packet (ReroutePkt) and writing it yields exactly the same hash, fields, key and signature behind the new header.", "quantifier": "every packet, built or read, of every type, and every new header", "why_tests_cant": "The claim is about all point types and contents; the keypoint case is the one that overflows a fixed eight-segment buffer.", "anchors": ["crates/pkt/src/netpkt/reroute.rs ReroutePkt::byte_segments", "crates/pkt/src/byte_segments.rs push_front"]}
{"id": "C58", "title": "lk_read_unchecked skips only the hash and signature check", "statement": "lk_read_unchecked accepts every byte string with the layout of a packet whatever its hash and signature, in every build profile, and otherwise behaves like lk_read.", "quantifier": "every byte string, both build profiles", "why_tests_cant": "Tests run in one build profile; the behaviour differs between the two.", "anchors": ["crates/linkspace/src/lib.rs lk_read_unchecked"]}
{"id": "C59", "title": "A truncated packet stream is reported", "statement": "If a packet stream ends in the middle of a packet, the stream decoder returns every complete packet before the cut and then an error, instead of ending as if the stream were complete.", "quantifier": "every list of packets, every cut point, every chunking", "why_tests_cant": "All cut points of all packets in all streams must be considered.", "anchors": ["crates/common/src/pkt_reader.rs NetPktDecoder::next"]}
{"id": "C60", "title": "A query accepts a packet exactly when it satisfies every predicate", "statement": "After adding any list of predicates on packet fields, spaces, receive stamp and result positions to an empty query, a packet passes the query's tests exactly when the packet satisfies each predicate on its own, whatever their order; a list that is refused as conflicting is one that no packet satisfies or whose limits allow no result; adding predicates never aborts.", "quantifier": "every list of predicates with operands that fit, every packet, every receive stamp", "why_tests_cant": "Predicates interact through shared state (type masks, depth bounds, prefix, limits); tests can only try a few of the combinations.", "anchors": ["crates/core/src/predicate/pkt_predicates.rs PktPredicates::and, check_space", "crates/core/src/predicate/builder.rs prefix", "crates/core/src/predicate/test_pkt.rs compile_predicates", "crates/pkt/src/field_ids.rs FieldEnum"]}
{"id": "C61", "title": "lk_get_all visits the results in order and says how many", "statement": "lk_get_all calls the callback with the results of the query in order until the callback breaks; the number it returns is the number of packets the callback was called with, negative exactly when it broke.", "quantifier": "every database state, every accepted query, every callback", "why_tests_cant": "The count comes from an iterator over allowed positions, which agrees with the number of calls for common queries only.", "anchors": ["crates/linkspace/src/lib.rs lk_get_all"]}
{"id": "C62", "title": "Extended comparison operators mean what they say", "statement": "The predicate operators >=, <=, =* (starts with) and *= (ends with) accept exactly the field values that are at least, at most, start with or end with the given bytes. Statements pushed one by one, written one per line in a text, or spread over several texts make the same query; an option is found under its name and leaves the rest of the query alone.", "quantifier": "every field width, every operand, every field value", "why_tests_cant": "They are rewritten to the basic operators on the bytes of the operand, with carries and masks; the edge cases are operands of zeros, of all ones, empty and too long ones.", "anchors": ["crates/core/src/predicate/exprs.rs"]}
{"id": "C63", "title": "A save announces the newest packet, if it stored any", "statement": "A successful save that stored at least one new packet announces to the other processes the stamp of the newest packet in the store; one that stored nothing new announces nothing.", "quantifier": "every store, every batch of packets, every clock reading", "why_tests_cant": "Batches mix known, repeated and new packets; a wrong stamp only loses a wake-up under a race.", "anchors": ["crates/core/src/env/lmdb/mod.rs BTreeEnv::save", "crates/core/src/env/lmdb/save.rs"]}
{"id": "C64", "title": "Splitting an expression into its top level components loses nothing", "statement": "lk_tokenize_abe gives exactly the parts of the text between the delimiters outside of brackets that are not excluded, each with its delimiter and whether it holds brackets; joining them with their delimiters gives the text back.", "quantifier": "every text of any length and nesting, every list of excluded delimiters", "why_tests_cant": "All texts and nestings; the doc example shows one.", "anchors": ["crates/linkspace/src/lib.rs lk_tokenize_abe", "crates/abe/src/ast.rs tokenize_abe_b"]}
{"id": "C65", "title": "Replacing a pattern in an expression", "statement": "replace_abe replaces every occurrence of the pattern, innermost lists first, scanning from the left and never overlapping, changes nothing else, and returns for every input.", "quantifier": "every expression, pattern and replacement", "why_tests_cant": "All expressions, any nesting, including replacements that contain the pattern.", "anchors": ["crates/abe/src/ast.rs replace_abe"]}
{"id": "C66", "title": "The text of a space reads back as the space", "statement": "The text form of a space, with components shown as text or base64 and escaped where needed, parses and evaluates to the same space; so does its expression form.", "quantifier": "every space, any component bytes and number of components", "why_tests_cant": "All component bytes and lengths; escaping and evaluation interact and only a few literal spaces are tested.", "anchors": ["crates/pkt/src/space_fmt.rs Display for Space, FromStr for SpaceBuf, Space::to_abe", "crates/pkt/src/space_fmt.rs SpaceExpr"]}
{"id": "C67", "title": "Evaluating an expression always ends", "statement": "lk_eval of any text returns a value or an error after finitely many steps, and the result does not depend on the resources given.", "quantifier": "every text of any length and nesting, every scope built from the core functions", "why_tests_cant": "Nontermination over all texts, including those that evaluate text they build themselves, cannot be found by running examples.", "anchors": ["crates/linkspace/src/lib.rs lk_eval", "crates/abe/src/eval.rs eval, BytesFE, AbeScope"]}
{"id": "C68", "title": "Texts of durations, stamps and ranges mean what they say and read back", "statement": "Parsing the text of a duration, a stamp or a stamp range gives the value that its digits and units describe and nothing else is accepted; printing a duration or a range and parsing the text gives the same value.", "quantifier": "every text; every duration, stamp and range", "why_tests_cant": "All texts and all 64-bit values; printing goes through floating point quotients which are wrong only for rare large values.", "anchors": ["crates/core/src/stamp_fmt.rs parse_duration_str, DurationStr, DurationStr::stamp", "crates/core/src/stamp_range.rs StampRange FromStr, Display"]}
{"id": "C69", "title": "Printing a query and parsing the text gives the same query", "statement": "The text printed for a query, parsed again, is a query that accepts the same packets, allows the same positions and has the same options; it is refused only if the query can have no result.", "quantifier": "every query built from any predicates and options, every packet, every position, every scope", "why_tests_cant": "The printed predicates are recomputed from the merged sets, so every combination of merged predicates is another case; the text goes through escaping, evaluation and operand parsing.", "anchors": ["crates/core/src/query.rs Query::to_str, parse, add_stmt", "crates/core/src/predicate/pkt_predicates.rs iter, add_ext_predicate", "crates/core/src/predicate/exprs.rs to_str, try_iter", "crates/linkspace/src/lib.rs lk_query_print, lk_query_parse, lk_query_push"]}
{"id": "C70", "title": "The datapoint buffer lets through exactly the linked datapoints", "statement": "Every packet with links pushed in the buffer comes out at once, preceded by those datapoints pushed since the previous packet with links that it links to and that did not come out before; a datapoint comes out when pushed iff the last packet with links links to it; nothing else comes out.", "quantifier": "every sequence of pushed packets", "why_tests_cant": "All orders of data and links.", "anchors": ["crates/common/src/pkt_stream_utils.rs Buffer::push"]}
{"id": "C71", "title": "Every instance has its own notification port, and keeps it", "statement": "The port found for a bus is found again by every process, asking for other buses does not change it, and distinct buses get distinct ports above 10501, for as long as there are ports.", "quantifier": "every file of saved ports, every sequence of distinct bus ids", "why_tests_cant": "All files and orders of requests, and the saturation is after 55034 of them.", "anchors": ["crates/ipcbus/src/udp_procbus.rs get_port"]}
{"id": "C72", "title": "lk_process_while serves all watches and tells how its watch ended", "statement": "It refuses an unknown watch id. It returns 1 exactly with the watch removed or replaced (or, without an id, with no watch left), -1 with it still there and matched by at least one new packet, 0 with the time over and no match. It waits only with nothing pending and some watch not past its receive bound, no longer than until the given time or the first receive bound, and with every stored packet already handled. While awake it does what lk_process does.", "quantifier": "every reachable runtime state, every callback, every timing of saves by others and of the clock, every number of rounds", "why_tests_cant": "The loop is unbounded and interleaves with other writers.", "anchors": ["crates/common/src/runtime/rx.rs run_while, next_work, watch_status", "crates/linkspace/src/lib.rs lk_process_while"]}
{"id": "C73", "title": "The text form of a packet is unambiguous", "statement": "Every packet has a text form, and two packets with the same text form have the same kind, hash, group, domain, space, key, creation stamp and links, as many bytes of data, and the same shown data: nothing in a field or in the data can pass for another field.", "quantifier": "every pair of packets, any bytes in group, domain, space, tags and data, every limit on the shown data", "why_tests_cant": "Ambiguity is a property of all pairs of packets.", "anchors": ["crates/pkt/src/repr.rs: PktFmt::to_str", "crates/pkt/src/space_fmt.rs", "crates/byte-fmt/src/lib.rs: AB::as_str"]}
{"id": "C74", "title": "Encrypted keys open with their password only", "statement": "The text made from a signing key and a password shows the public key, gives back the same key with the same password, and with any other password an error (or the same key), never another key. Any text that opens shows the public key of what comes out. No text makes opening or reading it abort, exactly the texts of the stated form are accepted, and a text stored as the first line of the data of a name claim is read back unchanged.", "quantifier": "every key, password and cost, every text, every hash function and digest with the stated sizes, any data after the first line", "why_tests_cant": "The set of passwords and texts is infinite, and a test uses one digest function; that a wrong password cannot yield another key holds for every digest.", "anchors": ["crates/argon2-identity/src/lib.rs: encrypt, decrypt, pubkey, decode_string", "crates/linkspace/src/lib.rs: lk_key_encrypt, lk_key_decrypt, lk_key_pubkey", "crates/common/src/protocols/lns/claim.rs: read_enckey"]}
{"id": "C75", "title": "Keys are found by name", "statement": "lk_key with a name that has no entry makes a key when asked to and stores it; from then on it gives that key for that name and password, in every later store where no other point was put at the name's space, and never saves again. With another password it gives the same key or an error. Without an entry and without being asked to create, or with a name of more than two components, it gives an error and stores nothing. It never replaces an entry. Setting the key of a name with overwrite makes the name give the new key.", "quantifier": "every honest store, name, password, key, clock reading and evaluation context; every signature scheme, hash and digest with the stated sizes", "why_tests_cant": "The result depends on every other point in the store and their order; tests use a fresh one.", "anchors": ["crates/linkspace/src/lib.rs: lk_key", "crates/common/src/protocols/lns/mod.rs: setup_special_keyclaim, lookup_claim, lookup_enckey", "crates/common/src/protocols/lns/admin.rs: save_private_claim", "crates/common/src/protocols/lns/utils.rs", "crates/common/src/cli/keys.rs"]}
{"id": "C76", "title": "A pull request asks for the query it was made from, at its own place", "statement": "lk_pull_point of a query that requires one group, one domain and has one qid option is a point in the local group and the exchange domain, in the space pull/GROUP/DOMAIN/QID, without links, whose data parses to a query that accepts the same packets, allows the same positions and has the same qid; it is refused if the text does not fit. Any request that is made is placed under the only group and domain its query can match, and requests at one place have the same group, domain and qid. lk_pull stores the point and returns its hash. Without one group, one domain or a qid it gives an error.", "quantifier": "every query built from predicates and options, every identifier, clock reading, scope, store and fault of the store", "why_tests_cant": "The text is printed with expressions from merged predicates and read by another process; every combination of predicates, group, domain and identifier is another text and another place.", "anchors": ["crates/linkspace/src/conventions/pull.rs: lk_pull, lk_pull_point", "crates/core/src/query.rs: Display for Query, qid", "crates/core/src/predicate/value_test.rs: TestSet::as_eq", "crates/pkt/src/rooted_space.rs: rspace_buf"]}
{"id": "C77", "title": "Status requests are asked once, answered in a chain, and their replies delivered", "statement": "The place of a status is the space status/GROUP/TYPE[/INSTANCE], given exactly if it fits, and different for different statuses. lk_status_request makes a point there without data and links in the local group. lk_status_overwatch accepts exactly the packets of the domain at or below the place made in the last timeout. lk_status_watch calls the callback with those found in the store that are not requests, says whether there were any, saves a request if it saw none, and then calls the callback once with every reply that comes into view until the time is up, in order. lk_status_set stores a first status and is then called with every new request at or below the type; requests for the type or for its instance are each answered by a reply that links to the previous one, requests for another instance are not.", "quantifier": "every status, timeout, clock reading, store, callback and update function, and every run of the runtime after the call", "why_tests_cant": "What is found, asked and answered depends on the whole contents of the store, on the order of saves by other processes and on the clock; tests meet a few of these orders.", "anchors": ["crates/linkspace/src/conventions/status.rs: lk_status_space, lk_status_request, lk_status_overwatch, lk_status_watch, is_status_reply, lk_status_set", "crates/linkspace/src/lib.rs: lk_get_all, lk_watch2, try_cb"]}
{"id": "C78", "title": "A followed watch shows each packet and then the stored packets it links to", "statement": "A watch with the option follow calls the callback with each packet it matches and then, in the order of the links, with every packet it links to that is in the store, until the callback breaks. Linked packets differ from the stored ones only in the flag that says so, the others only in that it is cleared. Without the option the callback is called with the packets as stored. With notify-close (multi-watch) the callback is given the packet that asked for the watch once, when the watch ends. A callback is told when its watch ends, also with follow.", "quantifier": "every callback, query, store and stored packet", "why_tests_cant": "What is shown depends on which of the links name stored packets and on where the callback breaks; the flags can have any value before.", "anchors": ["crates/common/src/runtime/handlers.rs: FollowHandler, NotifyClose, PktStreamHandler", "crates/common/src/runtime/rx.rs: watch_query", "cli/linkspace/src/multi_watch.rs: setup_watch"]}
{"id": "C79", "title": "The fields of a packet in an expression", "statement": "When an expression is evaluated with a packet, every field function gives the bytes the packet has for that field (zero or empty for kinds of packets without it), with :str a text of that value, and with :abe an expression that evaluates to the same bytes with and without the packet; any other format is an error. [links] lists the links of a python slice, [link:x] gives the hash of the first link whose tag ends with x, and [/links:e] evaluates e once for each link with its hash, tag and index. None of these hides a core function, and the arguments given along are [0] to [7]; more than eight are refused.", "quantifier": "every valid packet, every field, every surrounding scope, every list of arguments", "why_tests_cant": "There are 29 fields in four forms over four kinds of packets, lying depth bytes and any bytes in tags and components; that an expression means the same in every scope is a statement about all of them.", "anchors": ["crates/pkt/src/eval.rs: pkt_scope, NetPktFieldsEval, SelectLink, LinkEnv, RecvStamp", "crates/pkt/src/field_ids.rs: FieldEnum", "crates/abe/src/scope/argv.rs: ArgV", "crates/linkspace/src/lib.rs: lk_eval, UserData"]}
{"id": "C80", "title": "The text of a packet", "statement": "Evaluating [pkt], [netpkt] or [point] with a packet gives a text with one line per field: the type, the hash, names of the group and the key that evaluate to them, the domain, the space in a form that is read as that space, the creation time, the number of links, a line for each link, the size of the data and the data. Packets with the same text have the same hash and type. [netbytes] gives the bytes of the packet, and [pkt-quick] the text of C73 with the optional line for the time of receipt and the limit that its arguments ask for.", "quantifier": "every valid packet, every oracle for names, every list of arguments, every scope of user data", "why_tests_cant": "The text is the result of evaluating a stored expression in the scope of the caller: that it never fails (which would panic) and never shows a wrong value is a claim about all packets, links, names and scopes.", "anchors": ["crates/pkt/src/eval.rs: PktFmtScope, DEFAULT_FMT", "crates/pkt/src/repr.rs: DEFAULT_PKT, PktFmt::to_str", "crates/abe/src/scope/encode.rs"]}
{"id": "C81", "title": "Queries of the command line", "statement": "The argument domain:group:space:depth together with --signed, --unsigned, --until, --max, --max-new, --max-index, --max-branch, --db-only, --new-only and further expressions gives a query that accepts exactly the packets with that domain, group and space, at most that many components deeper, received before that time, and with the statements of the expressions, at exactly the positions within the limits; the query has the name given by --qid and the mode given by --mode. There is no query only if nothing can match. Parts of the argument that are left out stand for the default domain and group, the empty space and no further components.", "quantifier": "every argument text with expressions for domain, group and components, every combination of the other arguments, every clock value, every packet and position", "why_tests_cant": "The query goes through five stages (text, expression, printed statement, evaluated statement, compiled predicate), each of which can drop, widen or misread a part for some combination of arguments; that the packets are exactly those asked for is a claim about all packets.", "anchors": ["crates/common/src/dgs.rs: DGPDExpr::from_str, predicate_exprs", "crates/common/src/predicate_aliases.rs: PredicateAliases::as_predicates", "cli/linkspace/src/watch.rs: CLIQuery::into_query, DGPDWatchCLIOpts, statements2query, watch", "crates/core/src/query.rs: Query::mode, get_mode"]}
{"id": "C82", "title": "Reading stored packets in expressions", "statement": "In an expression [readhash:HASH:f:args] is what [f:args] is in the scope of the stored packet with that hash, so each of its fields has its value and its text; if no packet has that hash there is no value. [read:domain:group:space:key:f:args] is what [f:args] is in the scope of the latest packet stored at exactly that place, with group and key as bytes or base64, and has no value if there is none; the private group can be read only when LK_PRIVATE is true. The macro [/readhash:HASH:expr:alt] is expr evaluated with the packet's functions, or alt if the packet is not stored.", "quantifier": "every store, every stored packet, every place, every scope that offers these functions, every function of a packet but the formats pkt, netpkt and point, every argument expression", "why_tests_cant": "Which packet is the answer depends on all other packets of the store and on how the tree is searched; that no other packet is ever taken, or none although there is one, is a claim about all stores and places.", "anchors": ["crates/common/src/eval/mod.rs: ReadHash, read_dgpk", "crates/core/src/query.rs: Query::dgsk", "crates/core/src/env/queries.rs: query_tree", "crates/pkt/src/eval.rs: pkt_scope"]}
{"id": "C83", "title": "Encoding and evaluating inside expressions", "statement": "In an expression [?:V:options] is the text lk_try_encode gives for V with these options and fails exactly when it fails; [??:V:options] is that text without its brackets and [???:V:options] without the name of the function, so that the value can be made from it again; [eval:T] is what lk_eval gives for T, so [eval:[?:V:options]] is V. The macros [/?:expr/options] and [/~?:expr/options] do the same for the value of an expression, the latter trying the next encoder after an error, and [/e:expr] is the value of an expression with delimiters.", "quantifier": "every scope that offers these functions, every value and option given by any expression, every expression", "why_tests_cant": "Values and options come from arbitrary expressions and the text goes through printing, bracket removal and parsing; that the inner functions agree with the API on all of them is a claim about all texts.", "anchors": ["crates/abe/src/scope/encode.rs: Encode", "crates/abe/src/eval.rs: encode, encode_abe, eval"]}
{"id": "C84", "title": "Tests, alternatives, comments and spaces in expressions", "statement": "[size?:V:=:N] is V exactly when V has N bytes and an error otherwise; [val?:V:=:X] is V exactly when V is X; [/or:E1:E2:...] is the value of the first expression that does not fail, and fails when all do; [C:...] is nothing whatever its arguments; [//c1/c2/...] and [/~/c1/c2/...] are the bytes of the space of the components that are not empty, and an error exactly when these are no space of at most eight components.", "quantifier": "every scope that offers these functions, every value and component given by any expression, any number of alternatives and components", "why_tests_cant": "The arguments are arbitrary nested expressions, the number of alternatives and components is unbounded, and an alternative may fail for any reason.", "anchors": ["crates/abe/src/scope/logic.rs: LogicOps", "crates/abe/src/scope/comment.rs", "crates/pkt/src/space_fmt.rs: SpaceBuf::try_from_ablist, SpaceFE"]}
{"id": "C85", "title": "The files of an instance", "statement": "Reading a file by a path (also in an expression, [files:path]) gives the content of the file with the names of that path in the directory files of the instance, and nothing from anywhere else; writing a file puts the content exactly there, makes at most the directories on the way to it below the instance, and changes nothing else, whether it succeeds or fails; without overwriting nothing that exists is changed. A path is refused exactly if it is absolute, has a part '..' or starts with a part '.'. What was written is what is read by every path with the same names, and reading any other file gives what it gave before.", "quantifier": "every tree of files and directories, every location of the instance, every path and every content", "why_tests_cant": "Paths are arbitrary texts that pass the library's splitting into components, joining and the lookup of the system; that no text reaches outside of the directory is a claim about all of them and all trees.", "anchors": ["crates/common/src/eval/file.rs: check_path, files_data, set_files_data, FileEnv", "crates/common/src/runtime/rx.rs: files, new_opt_rt"]}
{"id": "C86", "title": "Data read into points", "statement": "The points made from a file, a string or standard input hold its data: the blocks read, one after the other, are the data in order without loss (without the delimiter bytes if a delimiter is set), no block exceeds the free space of its point, and without a limit on a read every block but the last fills its point. With a delimiter each line is one block, evaluated if asked for, up to the limit on the reads; what does not fit is cut off, given to the next points, or refused, as the overflow mode says; repeating gives the same lines again in order. `datapoint` writes datapoints whose data is the input; `link --multi` writes points that hold the input and, with --multi-link, each link the one before; without --multi one point holds the start of the input.", "quantifier": "every input of every length, every sequence of free spaces, all settings of delimiter, buffer size, limit, overflow mode, evaluation and repetition, every space, links and key", "why_tests_cant": "Blocks depend on where reads, delimiters, evaluated sizes and free spaces fall relative to each other over any number of calls; the state between calls (left over bytes, limits, rewinding) makes the errors show only for particular combinations.", "anchors": ["crates/common/src/cli/reader.rs: Reader::read_next_data, check_size, ReadSource::read, DataReadOpts::open_reader", "cli/linkspace/src/datapoint.rs: write_datapoint", "cli/linkspace/src/point.rs: build_with_reader, linkpoint"]}
{"id": "C87", "title": "Collecting packets", "statement": "`lk collect` links every packet it receives, in order and with its tag, from exactly one of the points it makes. Each result starts with the initial links (the first one), or a link to the result before it when results are chained, and the links of the point; then follow at most --max-links links to packets, exactly that many for all but the last result unless an interval is set, and at least one unless empty results are allowed. Packets are forwarded as they come, the result is written after them, and then the buffer is printed. Packets of the private group are written only with --private. A run whose expressions have values and whose links fit does not fail.", "quantifier": "every sequence of packets, timeouts and ends of the input, every destination list, all options, every space, links and key, every source of data", "why_tests_cant": "Which packet ends up in which result depends on the interleaving of packets and timeouts over any number of results, and on when the data runs out; the order of the outputs mixes two lists of destinations and a buffer.", "anchors": ["cli/linkspace/src/collect.rs: collect, Collector::collect, Collector::new_pkt", "crates/common/src/cli/opts.rs: check_private, write_dest, write_multi_dest"]}
{"id": "C88", "title": "Rewriting packets", "statement": "`lk rewrite` replaces each packet, in order, by the point whose fields are those the options give and otherwise the fields of the packet, signed, unsigned or left alone as --sign-mode says; datapoints stay as they are. It writes the new packet and then forwards the old one. Without options a point keeps its hash, also a signed one that is signed again with its key. A stream of points is rewritten to its end if the signed ones fit in a packet.", "quantifier": "every stream of packets, all options and sign modes, every key, every source of data, every list of destinations", "why_tests_cant": "It is a claim about every field of every point under each of the combinations of options and modes; the size limits and the kinds of points that stop the stream are not met by the packets of a test.", "anchors": ["cli/linkspace/src/rewrite.rs: rewrite, rewrite_pkt", "crates/common/src/cli/opts.rs: write_multi_dest"]}
{"id": "C89", "title": "Filtering a stream", "statement": "`lk filter` reads packets one after another and writes each of them to exactly one of its two outputs: to --write if it satisfies every predicate of the query and its position among those that do is allowed by the limits (or it is a datapoint and --allow-datapoint is given), to --write-false if not. It stops early only when the limits or the clock allow no further packet. With --live the predicates for the next packet are those the last packet taken gives, and the positions go on. A query that restricts the time of receipt is refused without --recv-now. A stream of packets does not make it fail.", "quantifier": "every stream of packets and clock readings, every list of predicates, all options, every list of destinations, every query that depends on the last packet", "why_tests_cant": "The position of a packet depends on all packets before it, and with --live the query does too; that nothing is lost or written twice is a claim about every stream.", "anchors": ["cli/linkspace/src/filter.rs: select", "cli/linkspace/src/watch.rs: statements2query", "crates/core/src/matcher/mod.rs: WatchEntry::new, update_tests, test"]}
{"id": "C90", "title": "Following links", "statement": "`lk get-links` writes, for each packet of its input, the stored packets it links and then the packet itself. A linked packet is followed by those it links, as many levels deep as asked, links in their order; so exactly the packets at the end of a path of at most that many links are written. With `skip` a link that is not stored is left out and the command succeeds. With `error` it succeeds exactly if every link it follows is stored. A packet that must not be written makes it fail.", "quantifier": "every stream of packets, every store, every depth of recursion, every list of destinations", "why_tests_cant": "The packets written depend on the graph of all stored packets, whose paths are unboundedly many; that none is missing or out of place is a claim about every graph and depth.", "anchors": ["cli/linkspace/src/get_links.rs: get_links, exec", "crates/linkspace/src/lib.rs: try_cb", "crates/common/src/cli/opts.rs: write_multi_dest"]}
{"id": "C91", "title": "Saving a stream", "statement": "`lk save` saves every packet of its input that the store does not have, in the order of the input, and nothing else. A packet whose hash was not stored before and did not come earlier in the stream is written to the outputs of --new, any other one to those of --old, and all of them to standard output with -f. If the command fails, the packets before the failure stay saved and written. Without the database among --new it does nothing. A stream of valid packets does not make it fail.", "quantifier": "every store, every stream of packets, every reading of the clock, every pattern of failures of the store, all options and destinations", "why_tests_cant": "Which output a packet goes to depends on all packets before it and on everything stored; failures can come at any packet and at any stage of a save.", "anchors": ["cli/linkspace/src/save.rs: save", "crates/core/src/env/lmdb/mod.rs: save_ptr_one", "crates/core/src/env/lmdb/save.rs", "crates/common/src/cli/opts.rs: write_multi_dest"]}
{"id": "C92", "title": "Queries with alternatives", "statement": "`lk multi-watch` watches, for a packet that holds a query, the packets that satisfy the query. With --or given it watches exactly the packets that satisfy the query and the first of the alternatives that can be added to it; a query that no alternative can be added to is refused. Never is a packet watched that satisfies no alternative, or that does not satisfy the query.", "quantifier": "every query and every list of alternatives that are made of statements on numeric fields, every packet and time of receiving", "why_tests_cant": "What an alternative does depends on all statements before it, also on those of alternatives that were given up; the sets of values are too large to try.", "anchors": ["cli/linkspace/src/multi_watch.rs: setup_watch, OrConstrait", "crates/core/src/query.rs: parse, add_stmt", "crates/core/src/predicate/pkt_predicates.rs: and, add_predicate"]}
{"id": "C93", "title": "Packets in Python", "statement": "A packet in Python is an object whose header attributes can be assigned: each assignment changes that attribute and no other, and every way to look at the packet, to write it and to save it agrees with them. The comparison operators are a total order, that of the tree, with == exactly for the same point; equal packets have the same hash(). Its links behave like a list, and comp_list gives the components of its space.", "quantifier": "every valid packet, every list of assignments with values of the right size, every index, every two or three packets", "why_tests_cant": "There are unboundedly many packets and sequences of assignments; an order has to be checked for all triples of packets.", "anchors": ["ffi/linkspace-py/src/pynetpkt.rs: Pkt, Links", "ffi/linkspace-py/src/lib.rs: lk_write, lk_save, lk_save_all", "crates/pkt/src/netpkt/reroute.rs: ReroutePkt", "crates/pkt/src/netpkt/cmp.rs: PktCmp"]}
{"id": "C94", "title": "Printing packets by templates", "statement": "`lk pktf` prints for each packet of the input, in order, what the template for its type gives: the first template for data points, the second or else the first for link points, the third or else the one before for key points; and the text of --error if that fails. The texts are separated by the delimiter with --join-delimiter and else each followed by it. With --inspect or --forward the packets printed go on unchanged, each after its text is printed. Only --private=false leaves out packets of the private group.", "quantifier": "every list of valid packets, every set of templates (as functions of the packet that may fail), delimiter, error text and list of destinations", "why_tests_cant": "Inputs, templates and destinations are unbounded, and the order of printing and forwarding matters for each packet.", "anchors": ["cli/linkspace/src/pktf.rs: pkt_info, PktFmtOpts", "crates/common/src/cli/opts.rs: write_multi_dest, check_private"]}
{"id": "C95", "title": "Destinations of packets", "statement": "The text of a --write or --forward option names where packets go: stdout (or -), stderr, null, db, buffer, or file:PATH with the whole rest as the path, so that every file can be named and an ordinary path stands for itself. With -expr after the name the rest is an expression that is written instead of the packet. Text that means something else is refused, nothing of it is ignored, and packets of the private group are written only if asked for.", "quantifier": "every text, every expression, every path, every packet, every scope of evaluation", "why_tests_cant": "The texts, paths and expressions are unbounded, and escapes, colons and brackets interact; a few examples do not show which texts are misread.", "anchors": ["crates/common/src/cli/mod.rs: WriteDestSpec::from_str, WriteDestSpec::open, write_pkt2", "crates/common/src/cli/opts.rs: check_private, write_dest"]}
{"id": "C96", "title": "Packets by hash, and callbacks in Python", "statement": "lk_get_hashes calls the callback with the stored packets that have the given hashes, in the order of the hashes, until it breaks, and returns how many, negated if it broke. lk_get of lk_hash_query(h) gives the stored packet with hash h, or nothing if there is none. In Python an exception of the function given to lk_get_hashes or lk_get_all ends the call and is raised, and the functions given to lk_watch are called.", "quantifier": "every database state, every list of hashes, every callback", "why_tests_cant": "All stores, lists with repeated and unknown hashes, and callbacks that break or raise at any call.", "anchors": ["crates/linkspace/src/lib.rs: lk_get_hashes, lk_hash_query", "crates/core/src/env/lmdb/get.rs: get_pkts_by_hash", "crates/core/src/query.rs: Query::hash_eq", "ffi/linkspace-py/src/lib.rs: lk_get_hashes, lk_get_all, call_cont_py, PyPktStreamHandler"]}
{"id": "C97", "title": "Numbers drawn from bytes", "statement": "bytes2uniform reads at least eight bytes as the f64 n/2^52, where n is the number in the first 52 bits, exactly and without rounding: it is at least 0 and below 1, every n/2^52 is given by exactly 2^12 values of the first eight bytes, the numbers are ordered as the bytes are, and only the first 52 bits matter. With fewer bytes it panics.", "quantifier": "every byte string", "why_tests_cant": "There are 2^64 beginnings; uniformity is a statement about all of them, and exactness of the floating point subtraction has to hold at every exponent.", "anchors": ["crates/linkspace/src/lib.rs: misc::bytes2uniform"]}
{"id": "C98", "title": "Making points in Python", "statement": "In Python lk_linkpoint and lk_keypoint make the packet their arguments mean: group and hashes as 32 bytes or base64 text, domain and tags as up to 16 bytes or text filled in front, the space as its bytes or a list of components of bytes or text, data as bytes or text, the stamp as eight bytes, and the defaults of the thread for what is left out. Nothing else is accepted, and a point that is too large is an exception.", "quantifier": "every combination of arguments, every default, every key", "why_tests_cant": "Arguments combine freely, and each accepts several forms that must not be confused: a 43 byte text is a group in base64, 32 bytes are the group itself.", "anchors": ["ffi/linkspace-py/src/lib.rs: lk_linkpoint, lk_keypoint, common_args, grp_arg, domain_arg, bytelike", "ffi/linkspace-py/src/pynetpkt.rs: Link::new", "ffi/linkspace-py/linkspace.pyi: lk_linkpoint, lk_keypoint"]}
{"id": "C99", "title": "Statements pushed and parsed", "statement": "lk_query_push(q, field, op, value) is lk_query_parse of the statement field:op:value with each part escaped: the same query or the same failure, for options as for predicates, and so for any sequence of them.", "quantifier": "every query, field, operator and value of any bytes, every scope", "why_tests_cant": "The value ranges over all byte strings, with every byte that needs an escape, and the two paths look fields up in different tables.", "anchors": ["crates/linkspace/src/lib.rs: lk_query_push, lk_query_parse", "crates/core/src/predicate/exprs.rs: ExtPredicate::try_from, RuleType::from_str", "crates/core/src/query.rs: Query::parse, Query::add_option"]}
{"id": "C100", "title": "Reading and writing packets in JavaScript", "statement": "In JavaScript lk_read gives a packet and the remaining bytes exactly when the bytes start with a whole packet with the right hash and signature, and lk_read_unchecked also for any hash and signature; packets of the private group pass only when asked for. On a packet cut short they throw the number of bytes needed, more than were given and never more than the packet has. lk_write gives the bytes of the packet back, and neither function writes past its buffer or panics.", "quantifier": "every byte array, every packet and every cut of it, every second argument", "why_tests_cant": "The inputs are all byte strings, and the memory safety of the copy depends on three size computations agreeing for every header.", "anchors": ["ffi/linkspace-js/src/lib.rs: lk_read, lk_read_unchecked, _read, lk_write", "crates/pkt/src/netpkt/netpkt_arc.rs: from_header_and_copy", "crates/pkt/src/point.rs: padded_content_size, check"]}
{"id": "C101", "title": "Making points in JavaScript", "statement": "lk_linkpoint and lk_keypoint in JavaScript make the packet their arguments say: data, group, domain, space, links and stamp each in its place, with the public group, the zero domain, the root space, no links and the current time for what is left out; they throw exactly when an argument means nothing or the packet would be too large.", "quantifier": "every value of every argument: texts, byte arrays, lists, objects, values that count as false", "why_tests_cant": "Each argument has several accepted shapes and the callers name group and domain the wrong way round, so only all combinations show that every value lands in its own field.", "anchors": ["ffi/linkspace-js/src/lib.rs: lk_linkpoint, lk_keypoint, common_args, try_as_link, as_byte_array", "ffi/linkspace-js/src/utils.rs: bytelike, opt_bytelike"]}
{"id": "C102", "title": "Packets in JavaScript", "statement": "The properties of a packet in JavaScript are its fields, undefined where the packet has none; its links are the same links in order whether iterated over, taken as an array or as bytes; and a link point made again from the fields read from it is the same packet, byte for byte, in whichever of these forms the space and the links are given.", "quantifier": "every packet, every combination of the forms of its space and links", "why_tests_cant": "The packets range over every number of links and components and all bytes, and making again composes every getter with every reader of an argument.", "anchors": ["ffi/linkspace-js/src/jspkt.rs: Pkt, Links, Link, links_array, links_bytes, comp_list", "ffi/linkspace-js/src/lib.rs: lk_linkpoint, common_args"]}
{"id": "C103", "title": "Opening a linkspace", "statement": "lk_open opens the database at the path given, else at $LK_DIR, else at $HOME/linkspace; it makes a directory only when asked to; each call gives a new runtime; all openings of one directory in a process, from any thread and under any of its paths, share one database session; and the first runtime opened in a thread is that thread's default from then on.", "quantifier": "every file system, every sequence of calls, every number of threads and every interleaving of them", "why_tests_cant": "The claims are about all histories and interleavings of calls; a test runs one, and the window between reading and writing the map of open databases is not hit on purpose.", "anchors": ["crates/common/src/static_env.rs: get_env, lk_dir, open_linkspace_dir, get_lk", "crates/linkspace/src/lib.rs: lk_open"]}
{"id": "C104", "title": "The default group and domain of a thread", "statement": "The default group and the default domain of a thread are settled by the first call that sets or reads them and does not panic: to the value set, to the value of the variable LK_GROUP or LK_DOMAIN at that time, or to the public group and the zero domain if there is none. From then on every read gives that value whatever the variable, and setting another panics and changes nothing. A read with a bad variable panics and settles nothing. Threads, and the group and the domain, do not affect each other.", "quantifier": "every sequence of sets and reads by any number of threads, every value of the variables at each read", "why_tests_cant": "The value depends on the whole history of a thread, and a test can set the process-wide variables and the thread-wide default once.", "anchors": ["crates/common/src/thread_local.rs: group, set_group, domain, set_domain", "ffi/linkspace-py/src/lib.rs: grp_arg, domain_arg, set_group, set_domain"]}
{"id": "C105", "title": "The key command", "statement": "The key command prints the encrypted key of the name if there is one, saving nothing, and only if the password opens it unless told not to check; if there is none it makes a new key under the password, saves it and prints it; with --overwrite it saves the key given, or a new one; with a new password it prints, and with --overwrite saves, the same key under the new password; and what it prints as public key is that of the encrypted key it prints.", "quantifier": "every combination of options, every key in the database, every password given or typed", "why_tests_cant": "There are thousands of combinations of options with what is in the database and what is typed, and the claim compares the key before and after.", "anchors": ["crates/common/src/cli/keys.rs: keygen, KeyGenOpts, KeyOpts, password_bytes_prompt"]}
{"id": "C106", "title": "Abbreviated hashes", "statement": "An abbreviation of a hash is the beginning of its base64 text, of four to 43 characters; it matches exactly the hashes whose text begins with it; these are next to each other in the order of hashes, and the index given to search from is the first of them; a whole text gives its hash.", "quantifier": "every text, every hash", "why_tests_cant": "The claim ranges over every length of text against every 32-byte hash and over the order of all hashes; six-bit characters and eight-bit bytes line up differently at each length.", "anchors": ["crates/core/src/partial_hash.rs: PartialHash::try_from_strlike, str_matches, str_greater_then, aprox_btree_idx, complete_try_into"]}
{"id": "C107", "title": "Packets in other serialisation formats", "statement": "A packet written to a serialisation format that can lend bytes is exactly its own bytes, whatever lies behind it in memory, and is read back as the same packet; whatever the input, only packets with the right hash and a valid signature are read.", "quantifier": "every packet, every format, every input", "why_tests_cant": "The claim ranges over every format that a program may choose and every byte string such a format may hand over, including forged ones.", "anchors": ["crates/pkt/src/netpkt/serde_impl.rs: Serialize for NetPktPtr, NetPktFatPtr, NetPktArc; Deserialize for NetPktBox, NetPktArc"]}
{"id": "C108", "title": "Matching spaces against patterns", "statement": "sp_match! succeeds on a space exactly when its components, all of them or the first of them when the pattern ends in .., are equal to the expressions of the pattern and convert to its types, in order; the values are those conversions and .. is the space of the components left; it never panics on a space.", "quantifier": "every space, every pattern of expressions and types with any conversion", "why_tests_cant": "The macro expands by recursion over patterns of any length, with other arms for the last element, and ranges over every space and every conversion.", "anchors": ["crates/pkt/src/space_macro.rs: sp_match!, sp_iter_match!"]}
{"id": "C109", "title": "Checking the database", "statement": "The database check passes after every history of saves, with whatever failures; a database that passes finds every packet by its hash under its stamp, has no hash without a packet, and has no tree entry that points to no packet; the error says which of these fails.", "quantifier": "every history of saves, every content of the three tables", "why_tests_cant": "The claim ranges over every history of saves and failures, and over every way in which three tables may disagree.", "anchors": ["crates/core/src/env/lmdb/db_info.rs: BTreeEnv::linkspace_info", "crates/core/src/env/lmdb/db.rs: IterDup::get_next_entry", "cli/linkspace/src/main.rs: Command::DbCheck"]}

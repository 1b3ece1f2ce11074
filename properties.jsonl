{"id": "C01", "title": "Bencode typed round trip", "statement": "Unmarshal(Marshal(v)) into a fresh zero value of v's type succeeds and yields v again (maps compared as finite maps), for every value whose nil-ness and integer ranges survive the format.", "quantifier": "every supported Go type built from strings, ints, uints, []byte, slices, arrays, string-keyed maps, structs with nil-able pointer fields and `any`, and every value of it of any size and nesting up to the depth limit", "why_tests_cant": "Types and values form an infinite recursive family; tests can only sample a few literals.", "anchors": ["bencode/encode.go: Marshal, Encoder.encode*", "bencode/decode.go: Unmarshal, Decoder.decode*"]}
{"id": "C02", "title": "Marshal output is canonical BEP-3 bencoding", "statement": "Whenever Marshal succeeds on a value without nil list elements or nil map values, its output is exactly one canonical BEP-3 item: minimal decimal integers, exact string lengths, dictionary keys strictly ascending as raw bytes with no duplicates.", "quantifier": "every encodable value of every supported type, any map iteration order", "why_tests_cant": "Canonicity is a claim about all outputs; a test sees only finitely many.", "anchors": ["bencode/encode.go: encodeString, encodeInt, encodeMap, encodeStruct"]}
{"id": "C03", "title": "Marshal does not depend on map iteration order", "statement": "Two runs of Marshal on the same data produce identical bytes, whatever order the runtime iterates maps in.", "quantifier": "every value and every pair of iteration orders of every map in it", "why_tests_cant": "Go randomises map order; a test observes one order per run.", "anchors": ["bencode/encode.go: encodeMap, MapKeys, slices.SortFunc"]}
{"id": "C04", "title": "Canonical input survives decode and re-encode byte for byte", "statement": "For every canonical BEP-3 item b whose integers fit int64, whose dictionary keys are non-empty and whose nesting is within the encoder's limit, Unmarshal into `any` succeeds and Marshal of the result is b.", "quantifier": "every canonical bencoded item", "why_tests_cant": "The set of canonical documents is infinite.", "anchors": ["bencode/decode.go: decodeInterface", "bencode/encode.go: encode"]}
{"id": "C05", "title": "Raw capture is byte exact", "statement": "A type with UnmarshalBencoding (RawMessage, Info, Pieces, Time, Peers) receives exactly the bytes of the value as they appear in the input, and decoding continues at the first byte after them.", "quantifier": "every input, accepted value and trailing data", "why_tests_cant": "Byte exactness must hold for every nesting and every non-canonical spelling (e.g. '+5', '007:').", "anchors": ["bencode/decode.go: decodeUnmarshaler, consume*", "bencode/raw_message.go: RawMessage"]}
{"id": "C06", "title": "Skipping a value and decoding it agree", "statement": "Skipping an unknown dictionary key (or a surplus array element) succeeds on exactly the inputs on which decoding the same bytes into `any` succeeds, and both stop at the same byte.", "quantifier": "every byte string", "why_tests_cant": "Needs agreement of two recursive parsers on all inputs.", "anchors": ["bencode/decode.go: consume, decodeInterface"]}
{"id": "C07", "title": "Unmarshal of untrusted bytes returns an error instead of panicking", "statement": "Unmarshal never panics, whatever bytes it is given and whatever (valid, non-nil) target it is given.", "quantifier": "every byte string and every target type", "why_tests_cant": "One adversarial input suffices to break it; tests cannot enumerate inputs.", "anchors": ["bencode/decode.go: decodeString, consumeString, decode (Pointer case)"]}
{"id": "C08", "title": "The decoder terminates and consumes a bounded prefix", "statement": "Decode terminates on every input, never reads past the value it returns, and its offset counter equals the number of bytes it consumed when it succeeds.", "quantifier": "every input and every target type", "why_tests_cant": "Termination and no over-read are universally quantified.", "anchors": ["bencode/decode.go: Decoder.decode, offset"]}
{"id": "C09", "title": "Nesting limit of the encoder is exact", "statement": "Marshal fails with the depth error if and only if some path in the value passes through more than 1000 slices, arrays, maps or structs (ignoring parts that are not emitted); otherwise depth never causes a failure.", "quantifier": "every value, any depth", "why_tests_cant": "Needs values of unbounded depth and width; boundary is exact.", "anchors": ["bencode/encode.go: ptrDepth, ptrDepthLimit"]}
{"id": "C10", "title": "Struct field resolution", "statement": "Each struct key is emitted at most once, keys ascend, a shallower field hides a deeper one with the same key, and among equally shallow ones a single tagged field wins; ambiguous keys are neither emitted nor decoded.", "quantifier": "every struct type, with any embedding, tags and visibility", "why_tests_cant": "The set of struct types is infinite.", "anchors": ["bencode/encode.go: getFieldsForStruct, parseTag", "bencode/decode.go: decodeStruct"]}
{"id": "C11", "title": "Unsorted or duplicate dictionary keys are rejected", "statement": "Every dictionary with keys not in strictly ascending order is rejected, whether it is decoded into a map, a struct, `any` or skipped.", "quantifier": "every input containing a dictionary with an out-of-order or repeated key at any nesting level", "why_tests_cant": "Position and nesting of the violation are unbounded.", "anchors": ["bencode/decode.go: decodeMap, decodeStruct, consumeDictionary"]}
{"id": "C12", "title": "Integers that do not fit the target are not silently altered", "statement": "When Unmarshal succeeds on an integer into an intN/uintN target, the stored value is the integer written in the input.", "quantifier": "every integer literal and every integer width", "why_tests_cant": "Boundary values for each width.", "anchors": ["bencode/decode.go: decodeInt, decodeUint"]}
{"id": "C13", "title": "Stream decoding of concatenated items", "statement": "Decoding successive items from one Decoder over the concatenation of their encodings returns the items in order, for any number of items.", "quantifier": "every list of items", "why_tests_cant": "Unbounded history.", "anchors": ["bencode/decode.go: NewDecoder, Decode"]}
{"id": "C14", "title": "Decoding into a used target", "statement": "After a successful Unmarshal into a non-zero target, every key present in the input determines its field and every absent key leaves the field as it was; a decoded list has exactly the elements of the input.", "quantifier": "every target value and input", "why_tests_cant": "Depends on every combination of old contents and input.", "anchors": ["bencode/decode.go: decodeSlice, decodeStruct, decodeMap, decodeInterface"]}
{"id": "C15", "title": "Bitfield is a set", "statement": "New(n) is empty; after Add(i), Has(j) is true iff j = i or it was true before; Add and Has succeed for every 0 <= i < n.", "quantifier": "every size, index and sequence of Adds", "why_tests_cant": "All sizes, indices and histories.", "anchors": ["bitfield/bitfield.go: New, Add, Has"]}
{"id": "C16", "title": "Items enumerates exactly the members in order", "statement": "Items() lists exactly the indices with Has true, each once, in ascending order.", "quantifier": "every bitfield", "why_tests_cant": "All 256^n bitfields.", "anchors": ["bitfield/bitfield.go: Items"]}
{"id": "C17", "title": "Difference is set difference for any pair of lengths", "statement": "b.Difference(a) has b's length and contains i iff b has i and a (if long enough) does not; neither operand changes.", "quantifier": "every pair of bitfields, any lengths", "why_tests_cant": "All pairs.", "anchors": ["bitfield/bitfield.go: Difference"]}
{"id": "C18", "title": "Bitfield index domain", "statement": "Has(i) and Add(i) panic exactly for the indices outside the byte range of the bitfield; no in-range call panics and out-of-range calls never touch another bit.", "quantifier": "every int index, negative included", "why_tests_cant": "All integers.", "anchors": ["bitfield/bitfield.go: Has, Add"]}
{"id": "C19", "title": "Handshake codec", "statement": "A handshake encodes to 68 bytes that decode to the same info hash and peer id; decoding accepts exactly the streams that start with a 68-byte frame carrying the BitTorrent protocol string, and reads nothing beyond them.", "quantifier": "every info hash, peer id and input stream", "why_tests_cant": "2^320 handshakes and all streams.", "anchors": ["api/peer/peer.go: Handshake.Encode, Handshake.Decode"]}
{"id": "C20", "title": "Message codec round trip", "statement": "Every message whose integers fit in 32 bits decodes back to itself from its encoding, with the following bytes untouched.", "quantifier": "every message of all ten types, every trailing stream", "why_tests_cant": "Payload space unbounded.", "anchors": ["api/peer/peer.go: Message.Encode, Message.Decode"]}
{"id": "C21", "title": "Framing is independent of TCP segmentation", "statement": "Reading messages from a connection yields the same messages however the byte stream is cut into reads.", "quantifier": "every stream of messages and every segmentation", "why_tests_cant": "Segmentations are exponentially many and chosen by the network.", "anchors": ["api/peer/peer.go: ReadMessage, ReadHandshake, Message.Decode"]}
{"id": "C22", "title": "A malformed message cannot crash the reader", "statement": "Message.Decode on any byte stream returns a message or an error; it never panics.", "quantifier": "every byte stream", "why_tests_cant": "Remote input is unbounded.", "anchors": ["api/peer/peer.go: Message.Decode"]}
{"id": "C23", "title": "Length prefix is truthful", "statement": "The first four bytes of an encoded message are the big-endian count of the bytes that follow (for payloads below 2^32).", "quantifier": "every message", "why_tests_cant": "Payload space unbounded.", "anchors": ["api/peer/peer.go: Message.Encode"]}
{"id": "C24", "title": "Piece lengths partition the torrent", "statement": "For an info whose piece count is ceil(total/PieceLength), every piece length is between 1 and PieceLength, only the last may be shorter, and they sum to GetLength().", "quantifier": "every well-formed single- or multi-file info", "why_tests_cant": "All sizes.", "anchors": ["api/metainfo/metainfo.go: GetLength, GetPieceLength"]}
{"id": "C25", "title": "Info hash is the SHA-1 of the original info bytes", "statement": "After decoding a metainfo file, Info.SHA1 is SHA-1 of exactly the bytes of the `info` value in the file, including unknown keys and non-canonical spellings.", "quantifier": "every metainfo byte string that decodes", "why_tests_cant": "All documents; a re-encoding implementation would pass on canonical samples.", "anchors": ["api/metainfo/metainfo.go: Info.UnmarshalBencoding", "bencode/decode.go: decodeUnmarshaler"]}
{"id": "C26", "title": "Pieces codec", "statement": "Pieces.UnmarshalBencoding(Pieces.MarshalBencoding(p)) = p; byte strings whose length is not a multiple of 20 are rejected; accepted ones split into consecutive 20-byte hashes.", "quantifier": "every list of hashes, every input", "why_tests_cant": "All lengths.", "anchors": ["api/metainfo/metainfo.go: Pieces"]}
{"id": "C27", "title": "Multi-file metainfo can be decoded", "statement": "A metainfo with a non-empty `files` list decodes to an Info whose Files are the listed files.", "quantifier": "every multi-file metainfo", "why_tests_cant": "The existing tests have no multi-file document.", "anchors": ["api/metainfo/metainfo.go: Info.Files", "bencode/decode.go: decodeSlice, decode"]}
{"id": "C28", "title": "Metainfo round trip", "statement": "Marshalling a single-file metainfo and unmarshalling it returns the same fields, with Info.SHA1 the hash of the marshalled info bytes.", "quantifier": "every single-file metainfo", "why_tests_cant": "All field values.", "anchors": ["api/metainfo/metainfo.go: Metainfo, Info, Time"]}
{"id": "C29", "title": "Compact peer list codec", "statement": "A list of IPv4 peers with 16-bit ports survives the compact form (up to the peer id, which compact form drops); strings whose length is not a multiple of 6 are rejected.", "quantifier": "every list of IPv4 peers; every byte string", "why_tests_cant": "All addresses and ports.", "anchors": ["api/tracker/tracker.go: compactPeers, parseCompactPeers"]}
{"id": "C30", "title": "Tracker request query round trip", "statement": "Decode(Encode(r)) into a fresh Request gives r, for arbitrary binary info hash, peer id, ip and event strings and 64-bit counters.", "quantifier": "every Request", "why_tests_cant": "Arbitrary bytes need escaping; 2^320 hashes.", "anchors": ["api/tracker/tracker.go: Request.Encode, Request.Decode"]}
{"id": "C31", "title": "A malformed tracker response cannot crash the client", "statement": "Peers.UnmarshalBencoding and the announce path return an error for any malformed response; they never panic.", "quantifier": "every byte string served by a tracker", "why_tests_cant": "Remote input.", "anchors": ["api/tracker/tracker.go: Peers.UnmarshalBencoding, parsePeers", "p2p/server.go: Start, Announce"]}
{"id": "C32", "title": "Built-in tracker lists exactly the live other peers", "statement": "An announce response lists exactly the peers of that torrent whose last announce is at most a minute old and not `stopped`, except the requester itself.", "quantifier": "every history of announces, clock readings and sweeps", "why_tests_cant": "Histories and clocks are unbounded.", "anchors": ["pex/http.go: ServeHTTP, NewHTTP"]}
{"id": "C33", "title": "Built-in tracker always answers with decodable bencode", "statement": "Every 200 response body of ServeHTTP is bencode that the client's Response decoder accepts, listing the same peers.", "quantifier": "every registry state and request", "why_tests_cant": "Depends on the whole registry content.", "anchors": ["pex/http.go: ServeHTTP", "api/tracker/tracker.go: Peers.MarshalBencoding"]}
{"id": "C34", "title": "One peer's announce cannot break the tracker for others", "statement": "After any sequence of announces, a well-formed compact announce still gets a 200 response.", "quantifier": "every history of other peers' announces", "why_tests_cant": "Adversarial histories.", "anchors": ["pex/http.go: ServeHTTP", "api/tracker/tracker.go: compactPeers"]}
{"id": "C35", "title": "Magnet parsing", "statement": "The parsed magnet has the first xt/dn/ws parameter, all tr and x.pe parameters in order, and a length iff xl is present; a non-numeric xl is an error.", "quantifier": "every query string", "why_tests_cant": "All strings.", "anchors": ["api/magnet/magnet.go: ParseMagnetURL"]}
{"id": "C36", "title": "Only hash-verified data is ever stored as a piece or served", "statement": "Starting from empty directories, every block returned by GetBlock lies in data whose pieces hash to the SHA-1s in the metainfo, whatever blocks were put.", "quantifier": "every sequence of PutBlock/GetBlock/ResetPiece/restart with arbitrary data and arbitrary file-system failures", "why_tests_cant": "Adversarial data and histories.", "anchors": ["storage/storage.go: PutBlock, coalesceBlocks, GetBlock"]}
{"id": "C37", "title": "GetBlock returns exactly the requested range", "statement": "GetBlock(i,b,n) after piece i is complete returns bytes [b,b+n) of that piece, and the same bytes before and after the torrent is coalesced into its final single or multiple files.", "quantifier": "every torrent layout, file boundaries included, every range", "why_tests_cant": "All file layouts and ranges.", "anchors": ["storage/storage.go: getBlockFromPiece, getBlockFromSingleFile, getBlockFromMultiFile"]}
{"id": "C38", "title": "Final files are the torrent content", "statement": "Once Torrent.Wait returns, or PutBlock returns nil with every piece complete, the target file equals the concatenation of the pieces, or each target file equals its slice of that concatenation; and whenever the target path exists it is complete.", "quantifier": "every torrent, any completion order", "why_tests_cant": "All layouts and orders.", "anchors": ["storage/storage.go: coalescePiecesForSingleFile, coalescePiecesForMultiFile"]}
{"id": "C39", "title": "Crash safety of storage", "statement": "If the process dies at any point, on disk the final path is absent or complete, every N.piece file in the work directory is a verified piece, and Load after restart recovers exactly those pieces.", "quantifier": "every crash point in every execution", "why_tests_cant": "Crash points cannot be enumerated by tests.", "anchors": ["storage/storage.go: Load, coalesceBlocks, coalescePieces*"]}
{"id": "C40", "title": "A piece that fails verification can be downloaded again", "statement": "After PutBlock reports a checksum error for a piece, ResetPiece makes the piece accept all its blocks again, and storing the right data completes it.", "quantifier": "every piece and history", "why_tests_cant": "Needs all histories.", "anchors": ["storage/storage.go: PutBlock, ResetPiece", "storage/torrent.go: reset", "future/future.go: Deliver"]}
{"id": "C41", "title": "Requested blocks tile the piece and are accepted", "statement": "The blocks a peer is asked for are contiguous, disjoint, cover the piece exactly, and each is accepted by PutBlock's size check.", "quantifier": "every piece length", "why_tests_cant": "All lengths.", "anchors": ["p2p/peer.go: requestPiece", "storage/storage.go: checkBlockSize"]}
{"id": "C42", "title": "PutBlock rejects blocks outside the torrent", "statement": "PutBlock with any index, begin and data either stores a block of the tiling or returns an error; it never panics.", "quantifier": "every index, begin and data (remote controlled)", "why_tests_cant": "Remote input.", "anchors": ["storage/storage.go: PutBlock, checkBlockSize", "storage/torrent.go: putBlock"]}
{"id": "C43", "title": "Downloaded counts verified bytes", "statement": "Storage.Downloaded() equals the number of bytes of completed pieces.", "quantifier": "every history", "why_tests_cant": "All histories.", "anchors": ["storage/storage.go: PutBlock, Load, Downloaded"]}
{"id": "C44", "title": "Storage calls never deadlock", "statement": "Any set of concurrent PutBlock, GetBlock, ResetPiece and Wait calls makes progress.", "quantifier": "every schedule of concurrent calls", "why_tests_cant": "Schedules.", "anchors": ["storage/storage.go: GetBlock, PutBlock", "storage/torrent.go: mu"]}
{"id": "C45", "title": "Files stay inside the configured directories", "statement": "Whatever names a metainfo contains, storage only creates files under TargetDir and WorkDir.", "quantifier": "every torrent name and file path", "why_tests_cant": "Adversarial names.", "anchors": ["storage/storage.go: coalescePieces*, filepath.Join", "storage/torrent.go: FileName"]}
{"id": "C46", "title": "Advertised bitfield is exactly the set of complete pieces", "statement": "At all times Torrent.Bitfield has i iff piece i is verified on disk or part of the final file, and bits are never cleared.", "quantifier": "every history", "why_tests_cant": "Histories.", "anchors": ["storage/torrent.go: completePiece, Bitfield"]}
{"id": "C47", "title": "Futures", "statement": "Wait returns only after Deliver and returns the delivered value to every waiter; a second Deliver panics.", "quantifier": "every schedule of waiters and deliverers", "why_tests_cant": "Schedules.", "anchors": ["future/future.go"]}
{"id": "C48", "title": "Multitracker failover and reordering", "statement": "An announce tries trackers in tier order and stops at the first success; the successful tracker moves to the front of its tier, all other relative orders and tier membership are preserved.", "quantifier": "every tier structure, success pattern and shuffle", "why_tests_cant": "All histories.", "anchors": ["p2p/multitracker.go: get, NewMultitracker"]}
{"id": "C49", "title": "One download loop per peer", "statement": "At any time a peer has at most one pending download token and, while the server runs, has one iff it is marked queued; it is never asked for two pieces at once.", "quantifier": "every schedule of messages, completions and timers", "why_tests_cant": "Schedules.", "anchors": ["p2p/server.go: queuePeer, requestPieceFromPeer"]}
{"id": "C50", "title": "One requester per piece", "statement": "A piece is never requested from two peers at once, and never from a peer that did not announce it or when we already have it.", "quantifier": "every schedule", "why_tests_cant": "Schedules.", "anchors": ["p2p/server.go: requestPieceFromPeer, inflight"]}
{"id": "C51", "title": "Connection limits", "statement": "At most 50 peers are registered, one per peer id and IP, and at most 50 connection handlers run.", "quantifier": "every schedule of connects and disconnects", "why_tests_cant": "Schedules.", "anchors": ["p2p/server.go: Connect, Serve, DialPeers"]}
{"id": "C52", "title": "A refused connection leaves the server usable", "statement": "After Connect returns an error, other server operations still proceed and the refused peer is not registered.", "quantifier": "every state and error path", "why_tests_cant": "Every early return.", "anchors": ["p2p/server.go: Connect", "p2p/peer.go: serve"]}
{"id": "C53", "title": "Blocked addresses are never dialled again", "statement": "After Block(peer), no address known for that peer is queued or dialled, in any later history; and no address is queued twice.", "quantifier": "every history after a block", "why_tests_cant": "Histories.", "anchors": ["p2p/server.go: Block, AddPeer, dialPeer"]}
{"id": "C54", "title": "Choking discipline", "statement": "We never send a request after the remote's choke has been processed until its unchoke, never serve a piece to a peer we choke, and send choke/unchoke/interest messages only on state changes.", "quantifier": "every interleaving of messages and local actions", "why_tests_cant": "Interleavings.", "anchors": ["p2p/peer.go: Send, HandleRequest, Choke, Unchoke, Interest, NotInterest"]}
{"id": "C55", "title": "Handshake authentication", "statement": "A connection is accepted only if the remote sent our info hash, a peer id different from ours and, when the id was known in advance, that id.", "quantifier": "every remote handshake", "why_tests_cant": "Remote input.", "anchors": ["p2p/peer.go: Handshake"]}
{"id": "C56", "title": "Cancel affects only pending requests", "statement": "A cancel suppresses a matching request at most once and never any other request; a request sent after its predecessor was already served is served.", "quantifier": "every sequence of requests and cancels", "why_tests_cant": "Histories.", "anchors": ["p2p/peer.go: HandleRequest, HandleCancel"]}
{"id": "C57", "title": "Each block request completes at most once with the right outcome", "statement": "A pending block request is completed at most once, by the first matching piece (nil), a choke (ErrChoked) or its timeout; completing never panics.", "quantifier": "every interleaving of requests, pieces, chokes and timeouts", "why_tests_cant": "Interleavings.", "anchors": ["p2p/peer.go: requestBlock, completeRequest, Receive"]}
{"id": "C58", "title": "Rarest piece first", "statement": "The piece chosen for a peer is one held by the fewest known peers among those available.", "quantifier": "every availability table", "why_tests_cant": "All tables.", "anchors": ["p2p/server.go: requestPieceFromPeer sort.Slice"]}
{"id": "C59", "title": "Peer registry consistency", "statement": "The address and availability indices mention only registered peers' data: after Disconnect(peer) no index refers to it, and other peers' entries are unchanged.", "quantifier": "every history of connects and disconnects", "why_tests_cant": "Histories.", "anchors": ["p2p/server.go: disconnect, RecordIndex, Connect"]}
{"id": "C60", "title": "Remote messages cannot crash the server", "statement": "HandleMessage never panics, whatever decodable message the remote sends.", "quantifier": "every message", "why_tests_cant": "Remote input.", "anchors": ["p2p/peer.go: HandleMessage, HandleHave"]}
{"id": "C61", "title": "An unanswered announce is an error", "statement": "When no tracker gives a usable response, the announce returns an error (never a nil response without error).", "quantifier": "every tier structure and failure pattern", "why_tests_cant": "All tier structures, including those a torrent file can contain.", "anchors": ["p2p/multitracker.go: get", "p2p/server.go: Start, Announce"]}
{"id": "C62", "title": "Bad announces are refused with a readable reason", "statement": "A request to the built-in tracker that is not a well-formed announce to a served torrent changes no registry entry and gets status 400; a body, if any, decodes to the failure reason.", "quantifier": "every request and registry state", "why_tests_cant": "All query strings.", "anchors": ["pex/http.go: ServeHTTP"]}
{"id": "C63", "title": "Torrents of one tracker do not affect each other", "statement": "An announce for one info hash never changes the registered peers of another.", "quantifier": "every request and registry state", "why_tests_cant": "All requests and registries.", "anchors": ["pex/http.go: ServeHTTP"]}
{"id": "C64", "title": "Wait on a piece returns nil only for stored, verified data", "statement": "When GetPiece(i).Wait() returns nil, piece i is on disk and hashes to its SHA-1, whatever happened concurrently.", "quantifier": "every execution and schedule", "why_tests_cant": "Schedules of PutBlock, ResetPiece and Wait.", "anchors": ["storage/torrent.go: Piece.Wait, complete, reset", "storage/storage.go: PutBlock"]}
{"id": "C65", "title": "Stored data is never lost or changed", "statement": "Bytes of a piece that were once on disk stay readable and unchanged, through later calls, assembly of the final files, failures, crashes and restarts.", "quantifier": "every execution and crash point", "why_tests_cant": "All continuations of all executions.", "anchors": ["storage/storage.go: coalescePiecesForSingleFile, coalescePiecesForMultiFile, Load"]}
{"id": "C66", "title": "A tracker's failure reason is an error", "statement": "A tracker reply that carries a non-empty failure reason is reported as an error and never taken for an answer, so the next tracker is tried.", "quantifier": "every reply body", "why_tests_cant": "All reply documents.", "anchors": ["p2p/multitracker.go: Tracker.get"]}
{"id": "C67", "title": "Announces state the true progress", "statement": "Every announce tells the tracker the info hash, peer id, port and event as configured, and as 'left' the number of bytes not yet stored.", "quantifier": "every torrent, storage state and history", "why_tests_cant": "All torrents and storage histories; multi-file torrents after restarts.", "anchors": ["p2p/multitracker.go: Tracker.get", "storage/storage.go: Downloaded"]}
{"id": "C68", "title": "Useful peers are not forgotten", "statement": "While the server runs, every connected peer that unchoked us and holds a piece we miss is being downloaded from, is queued for it, or is about to be.", "quantifier": "every execution and schedule", "why_tests_cant": "Lost wake-ups happen only in particular interleavings of messages, completions and queueing.", "anchors": ["p2p/server.go: enqueuePeer, dequeueAndRequestPiece, requestPiece, HandleMessage, AddPeerForPiece"]}
{"id": "C69", "title": "One slow peer does not stall the server", "statement": "While a peer does not read what is sent to it, the server goes on serving the other peers.", "quantifier": "every execution and schedule", "why_tests_cant": "Needs a peer that stops reading at a particular point.", "anchors": ["p2p/server.go: Connect, Broadcast, AnnouncePiece", "p2p/peer.go: Send"]}
{"id": "C70", "title": "Stop closes the peers and terminates", "statement": "Stop closes every registered connection, empties the registry and returns.", "quantifier": "every execution and schedule", "why_tests_cant": "All schedules of Stop against handlers, dials and downloads.", "anchors": ["p2p/server.go: Stop"]}
{"id": "C71", "title": "Announces at the interval the tracker asked for", "statement": "After a start, the server announces with the period of the interval field of the tracker's reply.", "quantifier": "every reply body", "why_tests_cant": "All integers in all reply documents.", "anchors": ["p2p/server.go: Start, every", "p2p/multitracker.go: Tracker.get"]}
{"id": "C72", "title": "Announced pieces are stored", "statement": "Every HAVE sent, and every bit of every BITFIELD sent, is of a piece that is stored; and a BITFIELD misses no piece stored before.", "quantifier": "every execution and schedule", "why_tests_cant": "Completion of pieces races with connections being set up.", "anchors": ["p2p/server.go: Connect, AnnouncePiece"]}
{"id": "C73", "title": "The bitfield is the first message, sent once", "statement": "A connection gets at most one BITFIELD, and nothing before it.", "quantifier": "every execution and schedule", "why_tests_cant": "Broadcasts race with connection set-up.", "anchors": ["p2p/server.go: Connect, Broadcast"]}
{"id": "C74", "title": "Refused connections are closed", "statement": "A connection that the server refuses is closed and not leaked.", "quantifier": "every execution", "why_tests_cant": "All ways in which Connect fails.", "anchors": ["p2p/server.go: handlePeer, Connect"]}
{"id": "C75", "title": "Uploads are genuine", "statement": "Every PIECE the program sends answers a REQUEST of the same peer, has the requested length and, for a range inside a piece, carries exactly the bytes of that piece, whose hash is right.", "quantifier": "every execution of the whole program, any history of the disk", "why_tests_cant": "Depends on the interleaving of uploads with downloads, assembly and restarts.", "anchors": ["p2p/peer.go: HandleMessage", "storage/storage.go: GetBlock"]}
{"id": "C76", "title": "Announced pieces are on the disk and verified", "statement": "Every piece announced to a peer by HAVE or BITFIELD is on the disk with the right hash, then and from then on.", "quantifier": "every execution of the whole program, any history of the disk", "why_tests_cant": "Races between storing, announcing and connecting; restarts.", "anchors": ["p2p/server.go: Connect, AnnouncePiece", "storage/storage.go: PutBlock, Load"]}
{"id": "C77", "title": "Only peers that sent bad data are blocked", "statement": "A peer is blocked only if it sent data that made a piece fail its check.", "quantifier": "every execution of the whole program", "why_tests_cant": "Blocks of a piece can come from any peer at any time.", "anchors": ["p2p/peer.go: requestPiece", "p2p/server.go: blockPeer"]}
{"id": "C78", "title": "A corrupted piece is downloaded again", "statement": "After a piece failed its check it can be requested again and is stored when right data arrives.", "quantifier": "every execution of the whole program", "why_tests_cant": "Needs the whole failure path: storage, futures, server.", "anchors": ["p2p/peer.go: requestPiece", "storage/storage.go: ResetPiece, PutBlock"]}
{"id": "C79", "title": "Well-behaved peers do not crash the program", "statement": "As long as all peers send well-formed messages in range and correct data, the process does not panic.", "quantifier": "every execution of the whole program", "why_tests_cant": "Late answers race with new requests for the same piece.", "anchors": ["p2p/peer.go: requestPiece", "storage/storage.go: ResetPiece"]}
{"id": "C80", "title": "Waiting ends", "statement": "A call waiting for a piece returns once the piece is stored, was reset, or a PutBlock on it failed; a call waiting for the torrent returns once its content is in place.", "quantifier": "every execution, schedule, crash and I/O failure", "why_tests_cant": "The waiter races with the calls that complete or fail the piece.", "anchors": ["storage/storage.go: Wait, WaitPiece, PutBlock, ResetPiece", "future/future.go: Future"]}
{"id": "C81", "title": "All blocks accepted means complete", "statement": "If PutBlock has returned nil for all blocks of a piece (and no reset came after), the piece is stored; if this holds of all pieces not stored before, the content is in place with the right hashes and Wait returns nil.", "quantifier": "every execution, schedule, crash and I/O failure", "why_tests_cant": "Any interleaving of the blocks of all pieces, duplicates, resets and restarts.", "anchors": ["storage/storage.go: PutBlock, Load, Wait"]}
{"id": "C82", "title": "IPv4 clients of the built-in tracker find each other", "statement": "A drip client that announces to drip's tracker learns exactly the addresses of the other clients of the torrent that announced within the last minute and did not stop, each once.", "quantifier": "every history of announces, for any torrents, and sweeps; every map order", "why_tests_cant": "The full path: request encoding, registry, compact reply, decoding, over any history.", "anchors": ["pex/http.go: ServeHTTP", "p2p/multitracker.go: Tracker.get", "api/tracker/tracker.go: Request, Peers"]}
{"id": "C83", "title": "On a working disk storage calls do not fail by themselves", "statement": "Suppose no operating system call fails by itself, temporary names are never reused, the target directory exists and the work directory has no file in the way. Then no PutBlock, GetBlock, ResetPiece or Wait of a Storage returns an input/output error, except a GetBlock for bytes outside the piece, and after every end of the process Load succeeds.", "quantifier": "every hash function, torrent, directory, sequence of calls, interleaving of goroutines, crash point and number of restarts", "why_tests_cant": "The temporary files and directories left by a crash could stand in the way of any later call; tests cover a few orders.", "anchors": ["storage/storage.go: Load, PutBlock, GetBlock, coalesceBlocks, coalescePieces, coalesceSingle, coalesceMulti"]}
{"id": "C84", "title": "Right data is accepted and completes the torrent", "statement": "On a working disk, while only blocks of the torrent's true content are put, every PutBlock returns nil or block-exists; a piece all of whose blocks have been put since the start of the process is stored; and when every piece was stored at the start or has been put since, the content is in place with the right hashes and waiters return nil.", "quantifier": "every torrent, content with the right hashes, order and number of concurrent and repeated puts, resets of pieces, crashes and restarts", "why_tests_cant": "Depends on every interleaving of goroutines that put the same and different pieces, and on what earlier crashes left on the disk.", "anchors": ["storage/storage.go: PutBlock, ResetPiece, coalesceBlocks, coalescePieces", "storage/torrent.go: putBlock, complete, coalesceBlocks"]}
{"id": "C85", "title": "A message that fails ends its connection", "statement": "If handling a peer's REQUEST or PIECE fails in the storage (a missing piece, a bad range, wrong data, an I/O error), the client takes no further message from that peer, uploads nothing more to it and closes the connection. If it succeeds (a block that was already there counts), the client goes on with that peer's next message, unless it is stopping or has blocked the peer.", "quantifier": "every run of the whole program: torrents, messages, schedules, I/O failures, crashes and restarts before", "why_tests_cant": "The failure is found in another layer, at any point of any schedule of handlers, requesters and Stop.", "anchors": ["p2p/peer.go: serve, HandleMessage, HandleRequest, HandlePiece", "storage/storage.go: GetBlock, PutBlock", "p2p/server.go: Disconnect"]}
{"id": "C86", "title": "A connection is closed only for a reason", "statement": "A registered connection is closed only if the client is stopping, the peer was blocked, or a read from it, a write to it, a request of it or a storage call made for it failed.", "quantifier": "every schedule of every number of connections and messages", "why_tests_cant": "Absence of an event in all schedules.", "anchors": ["p2p/server.go: Disconnect, Block, Stop", "p2p/peer.go: serve"]}
{"id": "C87", "title": "A connection is refused only for a reason", "statement": "A new connection is refused only if there are already 50 peers, its address is that of a registered peer, the handshake fails, a registered peer has the same id and IP, or the bitfield cannot be sent; a peer that has shaken hands and differs from all registered ones in id or IP is registered if there are fewer than 50.", "quantifier": "every history of connects and disconnects, all ids and addresses", "why_tests_cant": "All histories, and all pairs of ids and IP texts.", "anchors": ["p2p/server.go: Connect", "p2p/peer.go: IDIP, Handshake"]}
{"id": "C88", "title": "A fetched piece is announced to every connected peer", "statement": "When a piece the client requested has arrived and is verified, every peer that is connected is told of it: the goroutine that requested it sends each a HAVE, or the piece was in the bitfield sent at the start.", "quantifier": "every schedule of every number of connections, requests and failures", "why_tests_cant": "Peers come and go while the HAVEs are sent, in an order the map iteration chooses, and any send may fail.", "anchors": ["p2p/server.go: requestPiece, requestPieceFromPeer", "p2p/peer.go: requestPiece, Send"]}
{"id": "C89", "title": "A failed check blocks the peer that was asked", "statement": "When a piece that was requested of a peer fails its check, that peer is blocked; nothing but the server's lock can delay this.", "quantifier": "every run of the whole program: torrents, messages, schedules, I/O failures, crashes and restarts before", "why_tests_cant": "The error passes from the storage through a future and two goroutines in any schedule.", "anchors": ["p2p/server.go: requestPieceFromPeer, Block", "p2p/peer.go: requestPiece", "storage/torrent.go: Torrent", "future/future.go: Deliver, Wait"]}
{"id": "C90", "title": "Shared tables are only touched under their lock", "statement": "While one goroutine holds the server's (or a peer's) lock, no other goroutine reads or changes the tables that lock guards; no two goroutines can be writing to the same map at once, which Go punishes by aborting the program.", "quantifier": "every schedule of every number of connections, requests and messages", "why_tests_cant": "A race detector only sees the schedules that happen.", "anchors": ["p2p/server.go: Server, requestPieceFromPeer, Connect, Disconnect, Block, RecordIndex, AddPeer", "p2p/peer.go: Peer, Receive, HandleRequest, HandleCancel, requestBlock"]}
{"id": "C91", "title": "Messages are written one at a time", "statement": "Two goroutines never write to the same connection at once, so frames are never interleaved.", "quantifier": "every schedule of senders of requests, pieces, HAVEs, flags", "why_tests_cant": "Interleaving of writes depends on the schedule.", "anchors": ["p2p/peer.go: Send, Choke, Unchoke, Interest, NotInterest, HandleRequest, requestBlock"]}
{"id": "C92", "title": "Every connected peer is unchoked, once", "statement": "Each time the server goes through its peers to unchoke them, every connected peer that is still choked gets an UNCHOKE; afterwards it stays unchoked and gets no second UNCHOKE.", "quantifier": "every schedule, number of peers, and moment of the call", "why_tests_cant": "Peers connect and disconnect while the UNCHOKEs are being sent, and calls overlap.", "anchors": ["p2p/server.go: UnchokePeers, every, Start", "p2p/peer.go: Unchoke"]}
{"id": "C93", "title": "No byte is downloaded twice", "statement": "The bytes of the blocks that are accepted since the program started are at least the bytes that came to the disk, and, unless a piece with accepted blocks is given up and asked for anew, at most the ones that were missing at the start; when the download is complete they are exactly those.", "quantifier": "every torrent, schedule of the calls, data, and history of crashes before the start", "why_tests_cant": "The same block may come several times, from several peers, interleaved in any way.", "anchors": ["storage/storage.go: PutBlock, ResetPiece, coalesceBlocks, Load"]}
{"id": "C94", "title": "The transfer counters", "statement": "What the program reports as uploaded is the number of bytes of the blocks it sent in PIECE messages, and what it reports as downloaded the number of bytes of the blocks it received and accepted; blocks that come again, blocks refused and blocks that could not be sent do not count.", "quantifier": "every schedule, peers, messages, failures", "why_tests_cant": "Handlers of all peers change the counters in any order; sends and writes fail at any point.", "anchors": ["p2p/server.go: Uploaded, Downloaded", "p2p/peer.go: HandleRequest, HandlePiece"]}
{"id": "C95", "title": "Only wanted blocks are asked for", "statement": "Every REQUEST that is written to a peer is for one of the 16 KiB blocks (less at the end) of a piece; the peer had said over its connection that it has that piece, the client did not have it when it chose it, and it is asking that peer for that piece at that moment and for no other.", "quantifier": "every torrent, schedule, number of peers, messages received", "why_tests_cant": "Choosing a piece, asking for its blocks and receiving messages happen in different goroutines.", "anchors": ["p2p/server.go: requestPieces, requestPieceFromPeer, usefulPieces", "p2p/peer.go: requestPiece, requestBlock"]}
{"id": "C96", "title": "At most 16 blocks are asked of a peer at a time", "statement": "At any time at most 16 of the blocks requested from one peer are neither answered nor given up; the client asks one peer for one piece at a time, and within it for no block twice.", "quantifier": "every schedule, number of peers and pieces, messages received", "why_tests_cant": "Block requests are goroutines of their own; pieces are chosen by others.", "anchors": ["p2p/peer.go: requestPiece, requestBlock", "p2p/server.go: requestPieceFromPeer"]}
{"id": "C97", "title": "A piece counts as fetched only when the asked peer sent all of it", "statement": "A HAVE is sent to the peers, and the outcome of the check of a piece is used (announcing it, or blocking a peer), only after the peer that was asked for the piece has since then sent every block of it.", "quantifier": "every schedule, number of peers, messages received, failures", "why_tests_cant": "Blocks may come from any peer, in any order, before, while and after they are asked for.", "anchors": ["p2p/peer.go: requestPiece, HandlePiece", "p2p/server.go: requestPieceFromPeer"]}
{"id": "C98", "title": "What the program sends and receives is what the connections carry", "statement": "The messages written to a peer's connection, other than block requests, are exactly those the program decided to send to that peer, in the same order, none lost, repeated or sent to another peer; the messages it acts on are exactly those taken from that peer's connection, in the order they came, and each of them was sent by that peer. Each connection and the program agree on who is choked and on whether it is interested.", "quantifier": "every schedule, number of peers, messages received, failing writes", "why_tests_cant": "Several goroutines write to one connection and several connections feed one program; agreement is over whole histories.", "anchors": ["p2p/peer.go: Send, Receive, Serve", "p2p/server.go: Connect, announcePiece, unchokePeers"]}
{"id": "C99", "title": "Kinds of messages sent", "statement": "Only BITFIELD, HAVE, INTERESTED, NOT_INTERESTED, UNCHOKE, REQUEST and PIECE are ever sent: a peer is never choked again, a request is never cancelled and no KEEPALIVE is sent on an idle connection.", "quantifier": "every schedule, number of peers, messages received, failures", "why_tests_cant": "That something is never sent is a statement about all executions.", "anchors": ["p2p/peer.go: Keepalive, Choke, Unchoke, Interest, NotInterest", "api/peer/peer.go: MessageType"]}
{"id": "C100", "title": "What is sent can be read", "statement": "The bytes of the messages written to a peer's connection, however the network cuts them up, are read by a BitTorrent reader as exactly those messages, each a well-formed frame: no number is cut off on its way into a 32-bit field. For torrents of at most 2^32 pieces of at most 2^32 bytes, and a peer that has not asked for a block of about 4 GiB; the frame of such a block is read as a KEEPALIVE followed by its content.", "quantifier": "every schedule, number of peers, messages received, torrent, segmentation of the bytes", "why_tests_cant": "The numbers come from torrents, from peers and from the program's own choices over whole histories.", "anchors": ["api/peer/peer.go: Message.MarshalBinary, Message.Decode", "p2p/peer.go: Send"]}
{"id": "C101", "title": "Clients of this program do not harm each other", "statement": "If all members of a swarm run this program for the same torrent, and a connection delivers only what was written to it, then every block a member receives is what the torrent has there, no piece fails its check, whatever happens to the files, no member is blocked, and no message names a piece or place that does not exist. A member can crash only because a file operation failed while a block was stored, or because the answer to an earlier request for a piece came between a new request for it and the reset that the new request begins with; the latter does happen.", "quantifier": "every number of members and connections between them, schedule of each, delay and loss of messages, restart and crash history of each disk, failures of file operations", "why_tests_cant": "Quantifies over all runs of several programs at once.", "anchors": ["p2p/server.go: Connect, RequestPieces, announcePiece, Block", "p2p/peer.go: HandleMessage, HandlePiece, HandleRequest, requestPiece", "storage/storage.go: PutBlock, GetBlock, ResetPiece"]}
{"id": "C102", "title": "Calls on connections can always return", "statement": "The lock of a connection is never lost: whoever holds it is in a write, and releases it when that write ends. Every call of Send, Unchoke and NotInterest that the server has come to can return, after nothing but the writes going on have ended, and every requestPiece that has begun to ask a peer for blocks can stop waiting for them. No set of goroutines that use the connections wait for each other for good.", "quantifier": "every schedule, number of peers, messages received, state in which the calls are made", "why_tests_cant": "Absence of deadlock is about every state that any interleaving can reach.", "anchors": ["p2p/peer.go: Send, Receive, Unchoke, NotInterest, requestPiece, requestBlock, HandleRequest, HandleCancel", "p2p/server.go: Connect, requestPieceFromPeer, announcePiece, unchokePeers"]}
{"id": "C103", "title": "Copying the pieces is independent of how reads are split", "statement": "When the last piece of a torrent arrives, the target gets the bytes of the piece files one after the other, however few bytes each read returns: without an error the single file is all of them, and each of many files gets exactly its share; with an error what was written is the start of it; and if the pieces are there and no system call fails there is no error.", "quantifier": "all piece files on disk, all lists of target files and lengths, and all outcomes and sizes of every read, write, stat and open", "why_tests_cant": "the kernel may return any number of bytes for a read and fail at any call; a test sees one split and one point of failure", "anchors": ["storage/lazy_file_reader.go: checkOpen, checkClose, Read, WriteTo", "storage/storage.go: coalescePiecesForSingleFile, coalescePiecesForMultiFile"]}
{"id": "C104", "title": "One piece file is open at a time", "statement": "While a torrent of any number of pieces is completed, at no moment more than one of its piece files is open.", "quantifier": "all numbers of pieces, all target files, all outcomes of the system calls, all moments of the copying", "why_tests_cant": "the limit on open files is only met by large torrents, and the moment to observe is between two reads", "anchors": ["storage/lazy_file_reader.go: checkOpen, checkClose, Read, WriteTo", "storage/storage.go: coalescePiecesForSingleFile, coalescePiecesForMultiFile"]}
{"id": "C105", "title": "Completing a torrent closes the files it opened", "statement": "When coalescing the pieces ends, every piece file and every target file it opened has been closed.", "quantifier": "all piece files, target files and outcomes of the system calls", "why_tests_cant": "a descriptor that is left open has no visible effect until the process runs out of them", "anchors": ["storage/lazy_file_reader.go: checkClose, Read, WriteTo", "storage/storage.go: coalescePiecesForSingleFile, coalescePiecesForMultiFile"]}
{"id": "C106", "title": "What Start returns", "statement": "Start never returns nil: it returns an error, and only when loading or listening failed or when the server is ending because of a call of Stop or a failure of the listener or of an announce.", "quantifier": "all interleavings of Start, its loops and any number of calls of Stop; all outcomes of loading, listening, accepting and announcing", "why_tests_cant": "The result depends on which of five concurrent loops and which failure comes first; a test sees one order.", "anchors": ["p2p/server.go: Start, Serve, DialPeers, RequestPieces, every, Stop"]}
{"id": "C107", "title": "A server goes on until it is stopped", "statement": "A running server ends only when Stop is called; a tracker that cannot be reached for a while or a connection that cannot be accepted does not end it.", "quantifier": "all histories of a server and all outcomes of announces and of Accept", "why_tests_cant": "The failure can come at any moment of a run of any length.", "anchors": ["p2p/server.go: Start, Announce, every, Serve"]}
{"id": "C108", "title": "The events the tracker is told", "statement": "The tracker is told of the start once, before any other announce, and of the stop once, after every other announce.", "quantifier": "all interleavings of Start, Stop and the announcing loop", "why_tests_cant": "The order depends on races between the loops, the calls of Stop and the goroutine that waits for the context.", "anchors": ["p2p/server.go: Start, Stop, Announce", "p2p/multitracker.go: Multitracker.Start, Stop, Announce"]}
{"id": "C109", "title": "The tracker is told that the download is complete", "statement": "When the last piece has been stored the trackers are sent the event completed.", "quantifier": "all histories of a server", "why_tests_cant": "The absence of an event has to be shown for every history.", "anchors": ["p2p/multitracker.go: Multitracker.Complete", "p2p/server.go: Start"]}
{"id": "C110", "title": "Start can be called again", "statement": "After Start has returned (the port was taken, a tracker was down, the server was stopped) it can be called again on the same server.", "quantifier": "all states a storage can be in when Load is called a second time, all outcomes of system calls", "why_tests_cant": "What Load does depends on what is stored in memory and on disk, over all histories.", "anchors": ["p2p/server.go: Start", "storage/storage.go: Load", "storage/torrent.go: completePiece", "future/future.go: Deliver"]}
{"id": "C111", "title": "What Stop guarantees when it returns", "statement": "Once Stop has returned without the error that the server was not started, the listener is closed and all loops are told to end, for ever; and it returns that error only if the tracker had not yet been told anything.", "quantifier": "all interleavings of Start, its loops and any number of calls of Stop", "why_tests_cant": "Stop can be called at any moment, also in the middle of Start and several times at once.", "anchors": ["p2p/server.go: Stop, Start"]}
{"id": "C112", "title": "A server that is ending can come to rest", "statement": "From every state in which the server is ending, it can get, without further calls by the user and whatever the trackers answer, to a state in which Start and all calls of Stop have returned, all its loops have ended and the listener is closed; in such a state nothing of it runs any more.", "quantifier": "all reachable states of a server that is ending; all answers of trackers that do not crash the process", "why_tests_cant": "It is a statement on every reachable state of several goroutines that wait for each other.", "anchors": ["p2p/server.go: Start, Stop, every, Serve, DialPeers, RequestPieces"]}
{"id": "C113", "title": "Peers the tracker names can be reached", "statement": "Every peer with a valid IP and port that AddPeer puts into the queue is dialled at its IP and port, and a connection is made if the remote side accepts it.", "quantifier": "all histories of a server and all addresses, IPv4 and IPv6", "why_tests_cant": "It is about every address text and every history before the dial.", "anchors": ["p2p/server.go: AddPeer, dialPeer, dialTCP, remoteAddr"]}
{"id": "C114", "title": "A blocked peer is recognised by its address", "statement": "After a peer was blocked, AddPeer of a peer with the same IP and port has no effect, whatever form of address is used.", "quantifier": "all histories of a server and all addresses, IPv4 and IPv6", "why_tests_cant": "Two different texts are made of an address in two places; that they agree is a statement about all addresses.", "anchors": ["p2p/server.go: Block, AddPeer, remoteAddr", "p2p/peer.go: Peer.Addr"]}
{"id": "C115", "title": "Unmarshal accepts exactly the bencoded values", "statement": "Unmarshal into an any succeeds if and only if the input is one value in the canonical bencoding, and the any then holds that value as int, string, []any and map[string]any.", "quantifier": "all byte strings; all targets for the direction from success", "why_tests_cant": "The claim is about every text, accepted or not.", "anchors": ["bencode/decode.go: Unmarshal, decoder.decode, decodeAny, decodeInt, decodeString, decodeList, decodeDict"]}
{"id": "C116", "title": "Encodings tell values apart", "statement": "No encoding of a value is the beginning of the encoding of another value of its type, and two values of a type with the same encoding carry the same data. More generally a text accepted by Unmarshal has one meaning.", "quantifier": "all pairs of values of a type that survive encoding and decoding; all pairs of texts", "why_tests_cant": "A collision could be between any two values.", "anchors": ["bencode/encode.go: Marshal", "bencode/decode.go: Unmarshal"]}
{"id": "C117", "title": "A torrent can be downloaded", "statement": "From any state of the disk that earlier runs of the client can have left, including runs that were killed, a client started for a torrent can complete it from one peer that has the content: there is a run of the client in which that peer does nothing but send the bitfield of all pieces, unchoke a client that is interested and answer its requests with the bytes of the content, nothing crashes, and at the end the complete content lies at its target with the right hashes; the pieces that were missing are the peer's.", "quantifier": "All torrents with at most 2^32 pieces of at most 2^32 bytes, all contents with the right hashes, all histories of earlier runs and kills on a working disk, all addresses and peer ids of the seeder; existence of a run.", "why_tests_cant": "A test downloads one torrent of a few small pieces; that no torrent size, last piece length or history of stored pieces leaves the client waiting for something that a seeder will never do needs all of them.", "anchors": ["p2p/server.go: Server.Serve, Server.RequestPieces", "p2p/server.go: requestPieceFromPeer", "p2p/peer.go: HandleMessage, HandlePiece, requestPiece", "storage/storage.go: Storage.PutBlock"]}
{"id": "C118", "title": "One client gets the torrent from another", "statement": "Two clients with the same torrent, one with all pieces and one that lacks some, each started on its own disk after any history of downloads and kills: when the complete one is told the IPv4 address of the other, there is a run of both in which each talks only to the other, every message written is read in order, nothing crashes, and at the end the second has the complete content at its target with the right hashes, the pieces it lacked being those of the first, whose content is unchanged.", "quantifier": "All torrents with at most 2^32 pieces of at most 2^32 bytes, all histories of both on working disks, all directories, peer ids and IPv4 addresses; existence of a run of the two.", "why_tests_cant": "The two ends must fit for every torrent and every set of missing pieces: each message one side sends must be one that the other answers, at the moment it is sent. A test runs one torrent with one schedule.", "anchors": ["p2p/server.go: Server.Serve, Server.AddPeer, Server.RequestPieces", "p2p/peer.go: HandleMessage, HandleRequest, HandlePiece, requestPiece", "p2p/peer.go: Peer.Handshake", "storage/storage.go: Storage.PutBlock, Storage.GetBlock"]}
{"id": "C119", "title": "Storage cleans up after itself", "statement": "Storing blocks leaves nothing behind in WorkDir/temp: every temporary file or directory is gone once the call that made it has returned. When the torrent is complete the piece files in WorkDir are gone as well. What a killed process left there is removed by a later run.", "quantifier": "All torrents with plain names, all sequences of calls with any interleaving, all moments at which the process is killed, any number of restarts.", "why_tests_cant": "Leftovers depend on the return path taken, on the moment of a kill and on what every later run does; a test sees one of each.", "anchors": ["storage/storage.go: coalesceBlocks, coalescePiecesForSingleFile, coalescePiecesForMultiFile", "storage/storage.go: Storage.Load, Storage.PutBlock"]}
{"id": "C120", "title": "A complete torrent is left alone", "statement": "Once the torrent is in place under TargetDir nothing on the disk changes any more: no later call, concurrent or not, no failing os call, no kill and no restart adds, changes or removes any file or directory.", "quantifier": "All torrents with plain names, all histories that end with the torrent in place, all later calls, schedules, failures, kills and restarts, all paths.", "why_tests_cant": "Calls that were under way when the torrent became complete, and every start after that, must all find their way past the code that writes; a test tries a few schedules.", "anchors": ["storage/storage.go: Storage.PutBlock, Storage.Load, Storage.GetBlock, Storage.ResetPiece"]}
{"id": "C121", "title": "Unknown dictionary entries do not matter", "statement": "Decoding a dictionary into a struct does not depend on the entries whose key belongs to no field of the struct: take any of them out of the text and Unmarshal succeeds or fails as before and gives the same struct and the same remaining bytes.", "quantifier": "All struct types (also with embedded structs, pointers and custom decoders inside), all values already in the target, all dictionaries whose entries are spelled in a way the decoder accepts, all choices of entries to take out, all bytes that follow.", "why_tests_cant": "The unknown entries may stand anywhere between the known ones, hold values of any shape and be any number; a test adds one key to one struct.", "anchors": ["bencode/decode.go: Decoder.decodeStruct, Decoder.consume", "bencode/encode.go: getFieldsForStruct"]}
{"id": "C122", "title": "A lost peer is tried again", "statement": "A peer the tracker names is dialled. If the dial fails, or the connection is lost later, and the tracker names the peer again, then it is dialled again, unless it was blocked.", "quantifier": "All histories of a server, all addresses, all ends of a connection.", "why_tests_cant": "It is about what remains of a peer in the server's tables after every possible history.", "anchors": ["p2p/server.go: AddPeer, dialPeer, disconnect, Announce"]}
{"id": "C123", "title": "The memory of a connection is bounded", "statement": "What the client remembers of the requests made on a connection, by it and by the peer, is bounded by a constant, however many messages the peer sends.", "quantifier": "All histories of a client, all messages, all connections.", "why_tests_cant": "A bound on memory is a statement on histories of any length.", "anchors": ["p2p/peer.go: requestBlock, completeRequest, HandleRequest, HandleCancel"]}
{"id": "C124", "title": "The metainfo files the program writes are standard", "statement": "Marshalling a Metainfo, of a torrent of one file or of many, always succeeds and gives the canonical bencoding of the dictionary BEP 3 asks for: each field under its standard key, each file as a dictionary of its own with its length and its path, the piece hashes joined into one string, the creation date in seconds since 1970, and the optional fields left out exactly if they are empty. The same holds of the info dictionary on its own.", "quantifier": "every Metainfo and every Info value, any number of files, path elements, pieces and tracker tiers", "why_tests_cant": "The text depends on the tags of four struct types, on two marshalling methods and on which of the optional fields are empty; the project's tests encode one torrent of one file. Which fields go missing shows only for combinations no fixture has, and another client computes another info hash if one key differs.", "anchors": ["api/metainfo/metainfo.go: Metainfo, Info, File, Time.MarshalBencoding, Pieces.MarshalBencoding", "bencode/encode.go: Marshal"]}
{"id": "C125", "title": "Values made of parts are written part by part", "statement": "Whenever Marshal succeeds on a struct, a map or a slice, it has written exactly its parts: for a struct one dictionary entry for every exported field not tagged \"-\", except those that are nil and those that are tagged omitempty and empty (false, zero, or without elements); for a map one entry for every key; for a slice its elements in their order. Each part is written as Marshal writes it alone, and Marshal succeeds on each.", "quantifier": "every struct type without embedded fields, map type and slice type, every value of it, whatever methods the parts have", "why_tests_cant": "Every combination of tags, options, empty and nil fields and element types has its own text; tests fix a few structs. That no field is dropped or invented has to hold for all of them.", "anchors": ["bencode/encode.go: Marshal, encodeStruct, encodeMap, encodeSlice, isNil, isEmptyValue, parseTag"]}
{"id": "C126", "title": "Marshal fails on a whole only where it fails on a part", "statement": "If Marshal succeeds on every field of a struct that is to be written, on every value of a map with string keys, or on every element of a slice, then it succeeds on the struct, map or slice itself, provided its nesting stays within the limit of 1000.", "quantifier": "every struct type without embedded fields, map type and slice type, every value of it, whatever methods the parts have", "why_tests_cant": "The depth counter, the flags that decide whether a method is found, and the error paths of three encoders interact; that no combination makes a well formed whole fail cannot be seen from fixtures.", "anchors": ["bencode/encode.go: Marshal, encodeStruct, encodeMap, encodeSlice, encodeMarshaler"]}
{"id": "C127", "title": "A tracker is asked at the address its URL names", "statement": "An announce is sent to the host and the path of the tracker's URL; the query the tracker receives holds the parameters the URL already had and gives exactly the announce. URLs the program cannot use are errors, and nothing is sent.", "quantifier": "every tracker URL after RFC 3986 with a plain host, every scheme, path, query and fragment; every request", "why_tests_cant": "Escaped paths, fragments, empty paths and queries of the URL each take their own way through two parsers and a formatter; private trackers put a passkey there.", "anchors": ["p2p/multitracker.go: Tracker.get", "api/tracker/tracker.go: Request.Encode, Request.Decode"]}
{"id": "C128", "title": "A peer is told of a piece at most once", "statement": "No peer ever receives two HAVE messages for the same piece over one connection, and none receives a HAVE for a piece that was already complete when the server started: a piece that is requested again, from the same peer or another, after it came in by another way is still announced once.", "quantifier": "every history of a server or client: any number of peers and pieces, any order of goroutine steps, any messages, any failing calls", "why_tests_cant": "A second announcement needs two requests for one piece that both succeed, which only an unlucky order of a lookup, a store and the release of the in-flight mark could produce; a test sees a few orders.", "anchors": ["p2p/server.go: requestPieceFromPeer, requestPiece", "p2p/peer.go: Have, handlePiece"]}
{"id": "C129", "title": "Announces that overlap do not disturb each other", "statement": "Announces may overlap: Stop, Start, Complete and Announce of a multitracker can be called while another call waits for a tracker, and a stopping server does so. However they overlap, each call asks every tracker at most once until one answers, fails only if every tracker failed, and the trackers of a tier stay the same up to their order, so that none is lost.", "quantifier": "every announce list, any number of overlapping calls, any order of their steps, any outcome of every request", "why_tests_cant": "Whether a tracker is lost or skipped depends on what one call does between two statements of another.", "anchors": ["p2p/multitracker.go: Multitracker.get, Start, Complete, Stop, Announce", "p2p/server.go: Start, Stop, Announce"]}
{"id": "C130", "title": "The built-in tracker gives a peer the ID it announced last", "statement": "In a reply of the built-in tracker every peer is listed with the ID (and the text of the address) of its last announce, so that a client that dials it with the listed ID does not refuse it. A client that is started again at the same address has another ID.", "quantifier": "every history of announces and sweeps to any set of torrents, every clock that does not run backwards, every order of the peers in the reply", "why_tests_cant": "Whether an entry is made anew depends on whether a sweep fell between two announces of one address; histories are unbounded and the tests have none.", "anchors": ["pex/http.go: HTTP.ServeHTTP, NewHTTP", "p2p/peer.go: Handshake", "p2p/server.go: dialPeer"]}
{"id": "C131", "title": "A peer knows whether we want something from it", "statement": "INTERESTED is sent to a peer only after it announced a piece that is not stored, NOT_INTERESTED only when all it has announced is stored. While a peer that has announced a piece that is not stored waits for us, INTERESTED is the last it was told; when all it has announced is stored, NOT_INTERESTED is.", "quantifier": "every schedule of connection handlers and download goroutines, every sequence of messages from any number of peers, every moment at which a piece is stored", "why_tests_cant": "Interest and NotInterest are called by different goroutines, and the flag and the message are two steps; what the peer was told last depends on how they fall together.", "anchors": ["p2p/peer.go: Interest, NotInterest, HandleHave, HandleMessage", "p2p/server.go: requestPieceFromPeer, QueuePeer"]}
{"id": "C132", "title": "Requests are answered in turn, each at most once", "statement": "On one connection the blocks sent to a peer are answers to its requests in the order in which the requests came; a request is answered by one block, or dropped because it was cancelled, and no request is read before the earlier ones are dealt with. A block is never sent more often than it was asked for.", "quantifier": "every connection, every sequence of messages of the peer, every interleaving with other messages being sent, calls of Choke and Unchoke, cancels, and failures of the disk and of the connection", "why_tests_cant": "a test sends a few requests; duplicates, cancels and choking can be interleaved with the answers in any way", "anchors": ["p2p/peer.go: HandleRequest, HandleCancel, Receive, Send"]}
{"id": "C133", "title": "A write that failed for an I/O error can be tried again", "statement": "If PutBlock reports an I/O error (a full disk, say), then once the cause is gone the caller can put the block again, possibly after ResetPiece, and the download completes: the piece is stored, the torrent is assembled in its target and Torrent.Wait returns, without restarting the program.", "quantifier": "every torrent, every history of concurrent calls, crashes and restarts, every os call that fails, every later sequence of calls in the same run", "why_tests_cant": "a test makes one call fail and looks at the error; what no later call can repair shows only over all continuations of the run", "anchors": ["storage/storage.go: PutBlock, coalesceBlocks, coalescePieces, ResetPiece, Load", "storage/torrent.go: Wait, putBlock, reset, complete", "future/future.go: Deliver, Wait"]}
{"id": "C134", "title": "A peer is left idle only if others fetch what it has", "statement": "If the client leaves a peer that does not choke it alone for a while, although the peer has pieces the client misses, then all these pieces are being fetched from other peers at that moment.", "quantifier": "every torrent, every set of peers and what they announce, every interleaving of the client's goroutines, every failure", "why_tests_cant": "whether a free piece is overlooked depends on how the goroutines of all peers interleave", "anchors": ["p2p/server.go: requestPieceFromPeer, inflight", "p2p/peer.go: requestPiece"]}
{"id": "C135", "title": "The built-in tracker forgets the peers that left", "statement": "The tracker holds the torrents it was made with and no other, whatever is announced to it. Right after a sweep of a torrent it holds exactly the addresses whose last announce was not \"stopped\" and is at most a minute old; an address is held from its announce until a sweep finds it stopped or silent for more than a minute. So the memory it uses for a torrent is bounded by the addresses alive at the last sweep and the requests since, not by all that ever announced.", "quantifier": "all sets of torrents, all histories of requests and sweeps with a clock that does not run backwards, all iteration orders of the map", "why_tests_cant": "The bound must hold after arbitrarily long histories, with sweeps at any moment between announces.", "anchors": ["pex/http.go NewHTTP", "pex/http.go (*HTTP).ServeHTTP"]}
{"id": "C136", "title": "Two torrents in the same directories do not disturb each other", "statement": "Two torrents with different info hashes can be downloaded into the same TargetDir and WorkDir, at a time or one after the other, in one process or in two: neither loses or changes what the other has stored, each serves and assembles only its own verified data, and Wait of one does not return nil because of the other.", "quantifier": "all pairs of torrents, all interleavings of the calls of the two storages, all crashes and restarts of either, all failures of os calls", "why_tests_cant": "The two share WorkDir/temp and the directory of the final files; what one does to the disk must be harmless in every state of the other.", "anchors": ["storage/storage.go New", "storage/storage.go (*Storage).Load", "storage/storage.go (*Storage).coalesceBlocks", "storage/storage.go (*Storage).coalescePieces", "storage/torrent.go (*Torrent).WorkDir", "storage/torrent.go (*Torrent).FileName"]}
{"id": "C137", "title": "Load copes with whatever is on the disk", "statement": "Starting on a disk that other programs, the user or an earlier version have written to, Storage.Load either succeeds or returns an error; it does not take the process down, and it offers peers only data that it has verified.", "quantifier": "Every configuration, every contents of the disk, every sequence of failing os calls and every time of the start.", "why_tests_cant": "The directory listing is an arbitrary set of names; the names that bring Load down (numbers out of range, two names that start like the same piece) do not arise in tests that only let the program write its own directory.", "anchors": ["storage/storage.go: Storage.Load", "storage/storage.go: Storage.GetBlock"]}
{"id": "C138", "title": "A read is whole or an error", "statement": "Whatever has become of the files on disk, GetBlock returns either an error or exactly as many bytes as were asked for, namely those at the place asked for; a file that was cut short or removed is an error. Reading changes neither the files nor the state of the storage.", "quantifier": "Every configuration, every contents of the disk, every history of calls, crashes and restarts, and every index, offset and length.", "why_tests_cant": "The files of a finished torrent belong to the user, who may cut, replace or remove any of them at any time; tests read back files as the program wrote them.", "anchors": ["storage/storage.go: Storage.GetBlock", "storage/storage.go: Storage.getBlockFromSingleFile", "storage/storage.go: Storage.getBlockFromMultiFile", "storage/storage.go: Storage.getBlockFromPiece"]}

# A Rocq (Coq 8.16.1) model of browles/drip

The model covers the Go code of /repo package by package, then the goroutines of the
server, one connection and the storage as transition systems, then the server and the
storage together, and at last these with all connections.  Each property of `properties.jsonl` is a theorem in a
`Prop*.v` file.  Where the code violates a property, a `_refuted` theorem gives a
concrete input or schedule, and a second theorem (usually `_partial`) the strongest
true form we could prove.

## Layout (`rocq/theories`)

| files | content |
|-------|---------|
| `GoBase.v`, `GoMap.v` | bytes, Go results (`Ok`/`Err`/`Panic`), slices, byte-string order, big-endian words, maps and sets |
| `Strconv.v`, `Url.v`, `NetIP.v`, `Fs.v` | the parts of the Go standard library and of the operating system that drip uses |
| `BencTypes.v`, `BencFields.v`, `BencEncode.v`, `BencDecode.v` | the reflection based codec of `bencode/` over a deep embedding of Go types and values |
| `Bitfield.v`, `PeerWire.v`, `Metainfo.v`, `Tracker.v`, `Magnet.v`, `Multitracker.v`, `Announce.v`, `Pex.v`, `Future.v` | one file per package or source file |
| `Storage.v`, `StorageSys.v`, `StorageShare.v` | `storage/`: the code between lock operations; then locks, concurrent calls, crashes and restarts; then two storages on one disk |
| `LazyReader.v` | `storage/lazy_file_reader.go` and the copying loops of `coalescePieces`, one system call at a time, with the descriptors; the parts of `io` and `os` they use |
| `Lifecycle.v` | `p2p/server.go`: `Start`, `Stop`, `every`, how `Serve`, `DialPeers`, `RequestPieces`, `UnchokePeers` and `Announce` end, and `errgroup`: for one call of `Start` and any number of calls of `Stop`; announces as events |
| `P2PPeer.v`, `Requests.v` | sequential parts of `p2p/peer.go` |
| `P2PConn.v` | one connection: Send, Receive, choking, cancels, requestBlock |
| `P2PServer.v` | `p2p/server.go`: registry, handlers, request loop, Block, Disconnect, Stop |
| `Node.v`, `NodeCount.v` | server and storage together: the server's calls run in the storage model; the transfer counters |
| `Client.v` | server, storage and the connections of all peers together: each decides what the others leave open |
| `*Spec.v` | vocabulary of the theorems, independent of how the code works |
| `*Proofs.v`, `*Thms.v`, `BencDecodeEqs.v`, `BencRoundTrip.v` | lemmas |
| `Prop*.v` | the property theorems, closed by `exact`, with `Print Assumptions`, and examples showing their hypotheses can be met |

Model files contain no proofs; every definition cites the lines of /repo it models.

## Modelling decisions

* A Go `byte` is Coq's `Init.Byte.byte`; strings and byte slices are `list byte`.
* `int` is 64 bit.  Ints are `Z`; wrap-around is written where the code can wrap.
* `error` is a value, `panic` is a separate outcome, never merged with errors.  A panic
  in a goroutine ends the process.
* Loops over input are recursion on explicit fuel with a separate out-of-fuel outcome;
  theorems show that outcome unreachable.
* Goroutines are interleaved atomic steps.  A step is what happens between two points
  where another goroutine could make a difference; locks are part of the state.  Memory
  is sequentially consistent (the accesses we split are atomics or under locks; the
  unlocked `delete(inflight)` of server.go:402 is a separate step).
* Every theorem about a transition system is about all runs from the initial state,
  with all schedules and all choices of the environment, without a bound on their length.
* A timer may fire at any moment; a deadline is a failing read or write.
* The file system is a tree of files and directories; an oracle makes any call fail, and
  a crash can happen at any intermediate state of any call.

## Trusted base

* Coq's kernel (8.16.1) and `vm_compute` (used for concrete witnesses).
* `Print Assumptions` after each property theorem prints "Closed under the global
  context": no axiom is used, neither our own nor the standard library's.
* That the model says what the code does.  Each definition cites the lines it models.
* What the theorems quantify over instead of modelling:
  `crypto/sha1` (any function, nothing assumed); the texts of decoding errors; iteration
  orders of maps; random choices (shuffle, peer ids, ports); what trackers answer; which
  host an incoming connection has; what remote peers send and when; when timers fire;
  which file operations fail and what a crash leaves of the one in progress;
  `MarshalBencoding`/`UnmarshalBencoding` methods of user types.
* Standard library functions modelled by hand, from their documentation and source:
  `strconv` (base 10), `net/url` (queries, and URLs with plain hosts), `http.Get` up to the request it sends, `net.ParseIP`/`IP.String`/`JoinHostPort`,
  `path/filepath.Join`/`Clean`, `io.ReadFull`, `bufio.Reader` over bytes,
  `binary.BigEndian`, `sync.Mutex`/`RWMutex`, channels that are only closed, `sort.Slice`
  (insertion sort up to 12 elements, any order beyond), `rand.Shuffle`.

### Modelled

`bencode/` (encode.go, decode.go, raw_message.go), `api/metainfo`, `api/tracker`,
`api/peer`, `api/magnet`, `bitfield/`, `future/`, `storage/` (storage.go,
lazy_file_reader.go), `pex/http.go`, `p2p/multitracker.go`, `p2p/peer.go` and
`p2p/server.go`: all functions except those below.

### Not modelled

* Logging, error texts (except failure reasons sent by the built-in tracker), and the
  byte counters each peer keeps for itself, which are never read.
* `net/http` and sockets: an HTTP request is its decoded parts, a connection the list of
  segments it delivers.  TCP buffering is a send that may succeed, fail or block.
* Recursive Go types, cyclic values, aliasing between pointers, method promotion, hidden
  slice elements between len and cap (`BencTypes.v`).
* The abort of the Go runtime when it catches two goroutines in one map at once.  C90
  shows where this can happen.
* Memory and stack exhaustion, except `make` with impossible sizes.
* Loss of unsynced data when the whole machine crashes; symbolic links; permissions.
* In `Node.v` what a connection does is left open (which sends fail, when the blocks of a
  piece have come); `Client.v` composes it with `P2PConn.v`, and every run of `Client.v` is
  one of both (`client_runs_server`, `client_runs_connections`).

## Per property: what is modelled, how it is proved

`partial` means that the property as listed is false of the code or only part of it is
proved; the note in MANIFEST.json says which.

| id | property | model and proof | theorems | status |
|----|----------|-----------------|----------|--------|
| C01 | Bencode typed round trip | full encoder and decoder over a deep embedding of Go types; induction over types and values | `PropRound.v` | proved |
| C02 | Marshal output is canonical BEP-3 bencoding | encoder against the grammar in `BencSpec.v`; induction over values | `PropBencode.v`, `PropRound.v` | proved |
| C03 | Marshal does not depend on map iteration order | maps as association lists in any order; induction, permutation lemmas | `PropBencode.v` | proved |
| C04 | Canonical input survives decode and re-encode byte for byte | decoder into `any`, then encoder; induction over BEP-3 values | `PropBencode.v` | proved |
| C05 | Raw capture is byte exact | `consume*`, `decodeUnmarshaler`; fuel induction | `PropBencode.v` | proved |
| C06 | Skipping a value and decoding it agree | `consume*` against `decodeInterface`; simultaneous fuel induction | `PropBencode.v` | proved |
| C07 | Unmarshal of untrusted bytes returns an error instead of panicking | decoder with panics; refuted by witness, exact condition proved | `PropRound.v` | partial |
| C08 | The decoder terminates and consumes a bounded prefix | decoder with fuel and offset; fuel induction, the out-of-fuel outcome is unreachable | `PropBencode.v` | proved |
| C09 | Nesting limit of the encoder is exact | encoder with its depth counter; induction over values | `PropBencode.v` | proved |
| C10 | Struct field resolution | `getFieldsForStruct`; invariants of the breadth-first loop; parts refuted | `PropBencode.v` | partial |
| C11 | Unsorted or duplicate dictionary keys are rejected | decoder; fuel induction | `PropBencode.v` | proved |
| C12 | Integers that do not fit the target are not silently altered | `SetInt`/`SetUint` wrap; refuted by witness, conditional theorem | `PropBencode.v` | partial |
| C13 | Stream decoding of concatenated items | decoder; induction over the items | `PropBencode.v` | proved |
| C14 | Decoding into a used target | decoder into old values; lists refuted, rest proved | `PropRound.v` | partial |
| C15 | Bitfield is a set | `bitfield`; finite sweep over bytes lifted by list induction | `PropBitfield.v` | proved |
| C16 | Items enumerates exactly the members in order | same | `PropBitfield.v` | proved |
| C17 | Difference is set difference for any pair of lengths | same | `PropBitfield.v` | proved |
| C18 | Bitfield index domain | same; refuted near zero, exact panic domain | `PropBitfield.v` | partial |
| C19 | Handshake codec | `api/peer` over a reader with arbitrary segmentation; induction over segments | `PropPeer.v` | proved |
| C20 | Message codec round trip | same | `PropPeer.v` | proved |
| C21 | Framing is independent of TCP segmentation | same | `PropPeer.v` | proved |
| C22 | A malformed message cannot crash the reader | same; refuted, exact set of panicking streams | `PropPeer.v` | partial |
| C23 | Length prefix is truthful | same | `PropPeer.v` | proved |
| C24 | Piece lengths partition the torrent | `GetLength`, `GetPieceLength`; arithmetic | `PropMetainfo.v` | proved |
| C25 | Info hash is the SHA-1 of the original info bytes | metainfo types over the bencode model; corollary of C05 | `PropMetainfo.v` | proved |
| C26 | Pieces codec | Pieces methods; list induction | `PropMetainfo.v` | proved |
| C27 | Multi-file metainfo can be decoded | refuted by witness and by a theorem over all documents | `PropMetainfo.v` | partial |
| C28 | Metainfo round trip | corollary of C01 | `PropMetainfo.v` | proved |
| C29 | Compact peer list codec | compact peers, IPv4 text; list induction, sweep over octets | `PropTracker.v` | proved |
| C30 | Tracker request query round trip | `url.Values.Encode`, `url.ParseQuery`; escape/unescape round trip | `PropTracker.v` | proved |
| C31 | A malformed tracker response cannot crash the client | `parsePeers`; refuted by witness, every way to crash listed | `PropTracker.v` | partial |
| C32 | Built-in tracker lists exactly the live other peers | tracker registry state machine over histories of announces; invariants; refuted for odd texts | `PropPex.v` | partial |
| C33 | Built-in tracker always answers with decodable bencode | same; the empty list refuted | `PropPex.v` | partial |
| C34 | One peer's announce cannot break the tracker for others | same; IPv6 refuted | `PropPex.v` | partial |
| C35 | Magnet parsing | magnet over the URL model | `PropTracker.v` | proved |
| C36 | Only hash-verified data is ever stored as a piece or served | storage system (calls, steps, crashes, restarts); disk invariant | `PropStorage.v` | proved |
| C37 | GetBlock returns exactly the requested range | same | `PropStorage.v` | proved |
| C38 | Final files are the torrent content | same | `PropStorage.v` | proved |
| C39 | Crash safety of storage | same; crash points inside every step | `PropStorage.v` | proved |
| C40 | A piece that fails verification can be downloaded again | same; refuted | `PropStorage.v` | partial |
| C41 | Requested blocks tile the piece and are accepted | request loop; induction | `PropStorage.v` | proved |
| C42 | PutBlock rejects blocks outside the torrent | storage; refuted | `PropStorage.v` | partial |
| C43 | Downloaded counts verified bytes | storage; refuted | `PropCount.v`, `PropStorage.v` | partial |
| C44 | Storage calls never deadlock | lock-level transition system; refuted by a schedule; only deadlock proved | `PropStorage.v` | partial |
| C45 | Files stay inside the configured directories | `filepath.Join/Clean`; refuted; proved for plain names | `PropStorage.v` | partial |
| C46 | Advertised bitfield is exactly the set of complete pieces | storage; memory/disk invariant | `PropStorage.v` | proved |
| C47 | Futures | future state machine; invariant | `PropStorage.v` | partial |
| C48 | Multitracker failover and reordering | tiers; list lemmas | `PropTracker.v` | proved |
| C49 | One download loop per peer | server transition system (`P2PServer.v`), every schedule; invariants (`P2P*Proofs.v`) | `PropServer.v` | proved |
| C50 | One requester per piece | server transition system (`P2PServer.v`), every schedule; invariants (`P2P*Proofs.v`); refuted by a schedule or input, the strongest true form proved | `PropServer.v` | partial |
| C51 | Connection limits | server transition system (`P2PServer.v`), every schedule; invariants (`P2P*Proofs.v`); refuted by a schedule or input, the strongest true form proved | `PropServer.v` | partial |
| C52 | A refused connection leaves the server usable | server transition system (`P2PServer.v`), every schedule; invariants (`P2P*Proofs.v`); refuted by a schedule or input, the strongest true form proved | `PropServer.v` | partial |
| C53 | Blocked addresses are never dialled again | server transition system (`P2PServer.v`), every schedule; invariants (`P2P*Proofs.v`); refuted by a schedule or input, the strongest true form proved | `PropServer.v` | partial |
| C54 | Choking discipline | connection transition system (`P2PConn.v`), every schedule; invariants (`P2PConnProofs.v`); refuted by a schedule or input, the strongest true form proved | `PropConn.v` | partial |
| C55 | Handshake authentication | server transition system (`P2PServer.v`), every schedule; invariants (`P2P*Proofs.v`) | `PropServer.v` | proved |
| C56 | Cancel affects only pending requests | connection transition system (`P2PConn.v`), every schedule; invariants (`P2PConnProofs.v`); refuted by a schedule or input, the strongest true form proved | `PropConn.v` | partial |
| C57 | Each block request completes at most once with the right outcome | server, storage and connections composed (`Client.v`); an invariant that links the requesting goroutine of the server, its requestPiece on the connection and the blocks that came (`Client*Proofs.v`, `ClientThms.v`); refuted by a schedule or input, the strongest true form proved | `PropClient.v`, `PropConn.v` | partial |
| C58 | Rarest piece first | server transition system (`P2PServer.v`), every schedule; invariants (`P2P*Proofs.v`); refuted by a schedule or input, the strongest true form proved | `PropServer.v` | partial |
| C59 | Peer registry consistency | server transition system (`P2PServer.v`), every schedule; invariants (`P2P*Proofs.v`); refuted by a schedule or input, the strongest true form proved | `PropServer.v` | partial |
| C60 | Remote messages cannot crash the server | server composed with storage (`Node.v`), every schedule; invariants (`Node*Proofs.v`); refuted by a schedule or input, the strongest true form proved | `PropNode.v` | partial |
| C61 | An unanswered announce is an error | tiers of trackers; refuted by a schedule or input, the strongest true form proved | `PropTracker.v` | partial |
| C62 | Bad announces are refused with a readable reason | tracker registry state machine; invariants | `PropPex.v` | proved |
| C63 | Torrents of one tracker do not affect each other | tracker registry state machine; invariants | `PropPex.v` | proved |
| C64 | Wait on a piece returns nil only for stored, verified data | storage system; disk and memory invariants | `PropStorage.v` | proved |
| C65 | Stored data is never lost or changed | storage system; disk and memory invariants | `PropStorage.v` | proved |
| C66 | A tracker's failure reason is an error | tiers of trackers | `PropTracker.v` | proved |
| C67 | Announces state the true progress | the announce request and the storage counters; refuted by a schedule or input, the strongest true form proved | `PropAnnounce.v` | partial |
| C68 | Useful peers are not forgotten | server transition system (`P2PServer.v`), every schedule; invariants (`P2P*Proofs.v`) | `PropServer.v` | proved |
| C69 | One slow peer does not stall the server | server, storage and connections composed (`Client.v`); every goroutine of a connection belongs to one of the server (`ClientOwnProofs.v`), so that from any reachable state a continuation of the run can be given (`ClientFreeProofs.v`); refuted by a schedule or input, the strongest true form proved | `PropProgress.v`, `PropServer.v` | partial |
| C70 | Stop closes the peers and terminates | server transition system (`P2PServer.v`), every schedule; invariants (`P2P*Proofs.v`); refuted by a schedule or input, the strongest true form proved | `PropServer.v` | partial |
| C71 | Announces at the interval the tracker asked for | tiers of trackers; refuted by a schedule or input, the strongest true form proved | `PropTracker.v` | partial |
| C72 | Announced pieces are stored | server transition system (`P2PServer.v`), every schedule; invariants (`P2P*Proofs.v`) | `PropServer.v` | proved |
| C73 | The bitfield is the first message, sent once | server transition system (`P2PServer.v`), every schedule; invariants (`P2P*Proofs.v`) | `PropServer.v`, `PropWire.v` | proved |
| C74 | Refused connections are closed | server transition system (`P2PServer.v`), every schedule; invariants (`P2P*Proofs.v`); refuted by a schedule or input, the strongest true form proved | `PropServer.v` | partial |
| C75 | Uploads are genuine | server composed with storage (`Node.v`), every schedule; invariants (`Node*Proofs.v`) | `PropNode.v`, `PropWire.v` | proved |
| C76 | Announced pieces are on the disk and verified | server composed with storage (`Node.v`), every schedule; invariants (`Node*Proofs.v`) | `PropNode.v`, `PropWire.v` | proved |
| C77 | Only peers that sent bad data are blocked | server, storage and connections composed (`Client.v`); an invariant that links the requesting goroutine of the server, its requestPiece on the connection and the blocks that came (`Client*Proofs.v`, `ClientThms.v`); refuted by a schedule or input, the strongest true form proved | `PropClient.v`, `PropNode.v` | partial |
| C78 | A corrupted piece is downloaded again | server composed with storage (`Node.v`), every schedule; invariants (`Node*Proofs.v`) | `PropNode.v` | partial |
| C79 | Well-behaved peers do not crash the program | server, storage and connections composed (`Client.v`); an invariant that links the requesting goroutine of the server, its requestPiece on the connection and the blocks that came (`Client*Proofs.v`, `ClientThms.v`); refuted by a schedule or input, the strongest true form proved | `PropClient.v`, `PropNode.v` | partial |
| C80 | Waiting ends | storage system; futures delivered, invariants (`StorageWaitProofs.v`); refuted by a schedule or input, the strongest true form proved | `PropWait.v` | partial |
| C81 | All blocks accepted means complete | storage system; every accepted block is in memory or its piece on the disk (`StorageAcceptProofs.v`) | `PropAccept.v` | proved |
| C82 | IPv4 clients of the built-in tracker find each other | announce request, tracker registry, reply and its decoding composed; invariants over histories (`SwarmProofs.v`) | `PropSwarm.v` | proved |
| C83 | On a working disk storage calls do not fail by themselves | storage system on a disk that works; invariants: nothing in the way, no errors in memory, stored blocks are slices of the content (`StorageHealthProofs.v`, `StorageHealthSysProofs.v`, `StorageHonestProofs.v`) | `PropHealth.v` | proved |
| C84 | Right data is accepted and completes the torrent | storage system on a disk that works; invariants: nothing in the way, no errors in memory, stored blocks are slices of the content (`StorageHealthProofs.v`, `StorageHealthSysProofs.v`, `StorageHonestProofs.v`) | `PropHealth.v` | proved |
| C85 | A message that fails ends its connection | server model and whole program; invariants over the threads of a peer and the ordered events (`P2PEndProofs.v`, `P2PNameProofs.v`, `NodeErrorProofs.v`) | `PropEnd.v` | proved |
| C86 | A connection is closed only for a reason | server model and whole program; invariants over the threads of a peer and the ordered events (`P2PEndProofs.v`, `P2PNameProofs.v`, `NodeErrorProofs.v`) | `PropEnd.v` | proved |
| C87 | A connection is refused only for a reason | server model and whole program; invariants over the threads of a peer and the ordered events (`P2PEndProofs.v`, `P2PNameProofs.v`, `NodeErrorProofs.v`) | `PropEnd.v` | proved |
| C88 | A fetched piece is announced to every connected peer | server model and whole program; an invariant that links finished requests, announcing goroutines and sent HAVEs (`P2PHaveProofs.v`, `NodeWaitProofs.v`); refuted by a schedule or input, the strongest true form proved | `PropShare.v` | partial |
| C89 | A failed check blocks the peer that was asked | server model and whole program; an invariant that links finished requests, announcing goroutines and sent HAVEs (`P2PHaveProofs.v`, `NodeWaitProofs.v`) | `PropShare.v` | proved |
| C90 | Shared tables are only touched under their lock | server and connection models; a step that does not hold the lock is replayed with other tables (`P2PRaceProofs.v`); an invariant that counts UNCHOKEs (`P2PUnchokeProofs.v`); refuted by a schedule or input, the strongest true form proved | `PropRace.v` | partial |
| C91 | Messages are written one at a time | server and connection models; a step that does not hold the lock is replayed with other tables (`P2PRaceProofs.v`); an invariant that counts UNCHOKEs (`P2PUnchokeProofs.v`) | `PropRace.v` | proved |
| C92 | Every connected peer is unchoked, once | server and connection models; a step that does not hold the lock is replayed with other tables (`P2PRaceProofs.v`); an invariant that counts UNCHOKEs (`P2PUnchokeProofs.v`) | `PropRace.v` | proved |
| C93 | No byte is downloaded twice | storage system and whole program with the byte counters (`NodeCount.v`); an invariant that compares accepted bytes with blocks in memory and pieces on the disk (`StorageCountProofs.v`, `NodeCountProofs.v`) | `PropCount.v` | proved |
| C94 | The transfer counters | storage system and whole program with the byte counters (`NodeCount.v`); an invariant that compares accepted bytes with blocks in memory and pieces on the disk (`StorageCountProofs.v`, `NodeCountProofs.v`) | `PropCount.v` | proved |
| C95 | Only wanted blocks are asked for | server, storage and connections composed (`Client.v`); an invariant that links the requesting goroutine of the server, its requestPiece on the connection and the blocks that came (`Client*Proofs.v`, `ClientThms.v`) | `PropClient.v` | proved |
| C96 | At most 16 blocks are asked of a peer at a time | server, storage and connections composed (`Client.v`); an invariant that links the requesting goroutine of the server, its requestPiece on the connection and the blocks that came (`Client*Proofs.v`, `ClientThms.v`) | `PropClient.v` | proved |
| C97 | A piece counts as fetched only when the asked peer sent all of it | server, storage and connections composed (`Client.v`); an invariant that links the requesting goroutine of the server, its requestPiece on the connection and the blocks that came (`Client*Proofs.v`, `ClientThms.v`) | `PropClient.v` | proved |
| C98 | What the program sends and receives is what the connections carry | server, storage and connections composed (`Client.v`); an invariant that ties each goroutine of the server to its place on the connection and to the flags there (`ClientConnProofs.v`, `ClientWireProofs.v`, `ClientWireThms.v`) | `PropWire.v` | proved |
| C99 | Kinds of messages sent | server, storage and connections composed (`Client.v`); an invariant that ties each goroutine of the server to its place on the connection and to the flags there (`ClientConnProofs.v`, `ClientWireProofs.v`, `ClientWireThms.v`) | `PropWire.v` | proved |
| C100 | What is sent can be read | server, storage and connections composed (`Client.v`); an invariant that ties each goroutine of the server to its place on the connection and to the flags there (`ClientConnProofs.v`, `ClientWireProofs.v`, `ClientWireThms.v`); refuted by a schedule or input, the strongest true form proved | `PropWire.v` | proved |
| C101 | Clients of this program do not harm each other | several runs of `Client.v`, each one's received messages sent by another (`PeersSpec.v`); what one side is proved to send (PropWire, PropClient) meets what the other needs (`StorageRightProofs.v`, `PeersProofs.v`); refuted by a schedule or input, the strongest true form proved | `PropPeers.v` | proved |
| C102 | Calls on connections can always return | server, storage and connections composed (`Client.v`); every goroutine of a connection belongs to one of the server (`ClientOwnProofs.v`), so that from any reachable state a continuation of the run can be given (`ClientFreeProofs.v`) | `PropProgress.v` | proved |
| C103 | Copying the pieces is independent of how reads are split | the lazy readers and the copying loops read by read, with descriptors (`LazyReader.v`); an invariant on the readers left and the descriptors opened so far (`LazyReaderProofs.v`) | `PropReader.v` | proved |
| C104 | One piece file is open at a time | the lazy readers and the copying loops read by read, with descriptors (`LazyReader.v`); an invariant on the readers left and the descriptors opened so far (`LazyReaderProofs.v`) | `PropReader.v` | proved |
| C105 | Completing a torrent closes the files it opened | the lazy readers and the copying loops read by read, with descriptors (`LazyReader.v`); an invariant on the readers left and the descriptors opened so far (`LazyReaderProofs.v`); refuted by a schedule or input, the strongest true form proved | `PropReader.v` | partial |
| C106 | What Start returns | one call of Start, its loops, the errgroup and any number of calls of Stop as a transition system with the announces as events (`Lifecycle.v`); seven inductive invariants over all histories and, for C112, a run constructed from any state (`LifecycleProofs.v`); for C110 the storage model (`StorageReloadProofs.v`) | `PropLifecycle.v` | proved |
| C107 | A server goes on until it is stopped | one call of Start, its loops, the errgroup and any number of calls of Stop as a transition system with the announces as events (`Lifecycle.v`); seven inductive invariants over all histories and, for C112, a run constructed from any state (`LifecycleProofs.v`); for C110 the storage model (`StorageReloadProofs.v`); refuted by a schedule or input, the strongest true form proved | `PropLifecycle.v` | partial |
| C108 | The events the tracker is told | one call of Start, its loops, the errgroup and any number of calls of Stop as a transition system with the announces as events (`Lifecycle.v`); seven inductive invariants over all histories and, for C112, a run constructed from any state (`LifecycleProofs.v`); for C110 the storage model (`StorageReloadProofs.v`); refuted by a schedule or input, the strongest true form proved | `PropLifecycle.v` | partial |
| C109 | The tracker is told that the download is complete | one call of Start, its loops, the errgroup and any number of calls of Stop as a transition system with the announces as events (`Lifecycle.v`); seven inductive invariants over all histories and, for C112, a run constructed from any state (`LifecycleProofs.v`); for C110 the storage model (`StorageReloadProofs.v`); refuted by a schedule or input, the strongest true form proved | `PropLifecycle.v` | partial |
| C110 | Start can be called again | one call of Start, its loops, the errgroup and any number of calls of Stop as a transition system with the announces as events (`Lifecycle.v`); seven inductive invariants over all histories and, for C112, a run constructed from any state (`LifecycleProofs.v`); for C110 the storage model (`StorageReloadProofs.v`); refuted by a schedule or input, the strongest true form proved | `PropLifecycle.v` | partial |
| C111 | What Stop guarantees when it returns | one call of Start, its loops, the errgroup and any number of calls of Stop as a transition system with the announces as events (`Lifecycle.v`); seven inductive invariants over all histories and, for C112, a run constructed from any state (`LifecycleProofs.v`); for C110 the storage model (`StorageReloadProofs.v`) | `PropLifecycle.v` | proved |
| C112 | A server that is ending can come to rest | one call of Start, its loops, the errgroup and any number of calls of Stop as a transition system with the announces as events (`Lifecycle.v`); seven inductive invariants over all histories and, for C112, a run constructed from any state (`LifecycleProofs.v`); for C110 the storage model (`StorageReloadProofs.v`) | `PropLifecycle.v` | proved |
| C113 | Peers the tracker names can be reached | the texts of addresses in `P2PPeer.v`: properties of all IPv4 and IPv6 texts, and an invariant of the server on what is blocked (`P2PAddrProofs.v`); refuted by a schedule or input, the strongest true form proved | `PropAddr.v` | partial |
| C114 | A blocked peer is recognised by its address | the texts of addresses in `P2PPeer.v`: properties of all IPv4 and IPv6 texts, and an invariant of the server on what is blocked (`P2PAddrProofs.v`); refuted by a schedule or input, the strongest true form proved | `PropAddr.v` | partial |
| C115 | Unmarshal accepts exactly the bencoded values | the decoder model against the grammars of `BencSpec.v` in both directions; unambiguity of the grammars by induction on items (`BencStrictProofs.v`); refuted by a schedule or input, the strongest true form proved | `PropStrict.v` | partial |
| C116 | Encodings tell values apart | the decoder model against the grammars of `BencSpec.v` in both directions; unambiguity of the grammars by induction on items (`BencStrictProofs.v`) | `PropStrict.v` | proved |
| C117 | A torrent can be downloaded | a run of `Client.v` built step by step for any torrent and any history: connection, bitfield, unchoke, then piece by piece by induction on the missing pieces and on the blocks of a piece, with the storage answers from the theorems on a working disk (`DownloadStoreProofs.v`, `DownloadProofs.v`, `DownloadMainProofs.v`) | `PropDownload.v` | proved |
| C118 | One client gets the torrent from another | the run of C117 of one client and a run of the other, a seeder, that answers it (`ServeProofs.v`), cut at the messages and put together by induction on the messages (`PairProofs.v`); the wires between them are defined in `PairSpec.v` | `PropPair.v` | proved |
| C119 | Storage cleans up after itself | every os call is shown to touch only the paths it is given, so a call touches only its temporary name, the piece directory, the target and the directories above them (`StorageTidyProofs.v`); lifted to executions with the invariant of `StorageSysProofs.v`; refuted by a schedule or input, the strongest true form proved | `PropTidy.v` | partial |
| C120 | A complete torrent is left alone | every os call is shown to touch only the paths it is given, so a call touches only its temporary name, the piece directory, the target and the directories above them (`StorageTidyProofs.v`); lifted to executions with the invariant of `StorageSysProofs.v` | `PropTidy.v` | proved |
| C121 | Unknown dictionary entries do not matter | an inductive relation between a struct before and after its entries, shown to be what the struct loop of the decoder computes in both directions, and shown not to see foreign entries (`BencIgnoreProofs.v`) | `PropIgnore.v` | proved |
| C122 | A lost peer is tried again | C122 from the invariant behind C53 that counts how often an address is queued and dialled (`P2PLostProofs.v`); C123 from an invariant that gives every entry of the request table a call that has not returned, and a family of runs of the connection model of any length (`P2PMemProofs.v`); refuted by a schedule or input, the strongest true form proved | `PropLong.v` | partial |
| C123 | The memory of a connection is bounded | C122 from the invariant behind C53 that counts how often an address is queued and dialled (`P2PLostProofs.v`); C123 from an invariant that gives every entry of the request table a call that has not returned, and a family of runs of the connection model of any length (`P2PMemProofs.v`); refuted by a schedule or input, the strongest true form proved | `PropLong.v` | partial |
| C124 | The metainfo files the program writes are standard | marshal of the metainfo types against the BEP 3 dictionaries of MetainfoTextSpec.v; the struct encoder is run field by field (fields_text), each field by the lemma of its type. | `PropText.v` | proved |
| C125 | Values made of parts are written part by part | inversion of one step of the encoder, a lemma that a value that can be encoded deep can be encoded at the top with the same text (shallower), and the field resolution theorems of C10 for structs without embedded fields; for C126 the converse, that a deeper place changes a success only into the depth error (deeper, `BencWholeProofs.v`). | `PropParts.v` | proved |
| C126 | Marshal fails on a whole only where it fails on a part | inversion of one step of the encoder, a lemma that a value that can be encoded deep can be encoded at the top with the same text (shallower), and the field resolution theorems of C10 for structs without embedded fields; for C126 the converse, that a deeper place changes a success only into the depth error (deeper, `BencWholeProofs.v`). | `PropParts.v` | proved |
| C127 | A tracker is asked at the address its URL names | url.Parse, URL.String and http.Get on URLs with plain hosts (`TrackerUrl.v`) against the grammar of `TrackerUrlSpec.v`; the text is parsed, given its query, printed and parsed again, and the parts come back (`TrackerUrlProofs.v`); refuted by a schedule or input, the strongest true form proved | `PropUrl.v` | partial |
| C128 | A peer is told of a piece at most once | server model and whole client; an invariant: once the HAVEs of a piece are being sent, those sent and those that any goroutine can still send are at most one per peer (`P2POnceProofs.v`, `ClientOnceProofs.v`) | `PropOnce.v` | proved |
| C129 | Announces that overlap do not disturb each other | an invariant over all histories of overlapping calls (shape of the tiers, position of each call), a refinement of an undisturbed call to mt_get by induction on its steps, and two concrete histories for what is false.; refuted by a schedule or input, the strongest true form proved | `PropOverlap.v` | partial |
| C130 | The built-in tracker gives a peer the ID it announced last | the entry of one address is followed through every step of the tracker (made by an announce, kept, or swept), on top of the invariant of PexProofs.v; a concrete history for what is false.; refuted by a schedule or input, the strongest true form proved | `PropIds.v` | partial |
| C131 | A peer knows whether we want something from it | every step of the server is sorted into steps of the handler of the peer, steps of its download goroutine, and others (which leave both alone); invariants over these link the flag, the messages, the pieces announced and the lock; concrete schedules for what is false.; refuted by a schedule or input, the strongest true form proved | `PropInterest.v` | partial |
| C132 | Requests are answered in turn, each at most once | invariant of the connection model: the requests received are the answers given followed by the one the receiving loop is working on | `PropTurn.v` | proved |
| C133 | A write that failed for an I/O error can be tried again | after an I/O error the piece is settled (future delivered); settled pieces refuse everything by induction over the run; if all pieces are stored and the torrent waits, memory and disk never change again; restart via load_spec; refuted by a schedule or input, the strongest true form proved | `PropRetry.v` | partial |
| C134 | A peer is left idle only if others fetch what it has | for a requester that goes through its list, every piece of the peer that was missing at the look is still on the list or was in flight since; induction over runs, with the invariant that every entry of inflight has a goroutine; refuted by a schedule or input, the strongest true form proved | `PropIdle.v` | partial |
| C135 | The built-in tracker forgets the peers that left | By characterising the entries of the state: an address is held iff it is not `forgotten` (reverse induction over the history, with the invariant of C32); the bound by counting the addresses that announced since the sweep. | `PropForget.v` | proved |
| C136 | Two torrents in the same directories do not disturb each other | StorageShare.v: two processes of StorageSys.v on one disk. What belongs to one torrent is `outside` the other (hex names are injective), and C45 says a Storage leaves what is outside alone; so the invariant of each survives the steps of the other.; refuted by a schedule or input, the strongest true form proved | `PropBeside.v` | partial |
| C137 | Load copes with whatever is on the disk | StorageFoundSpec, StorageFoundProofs: Load on an arbitrary disk; refuted by a schedule or input, the strongest true form proved | `PropFound.v` | partial |
| C138 | A read is whole or an error | StorageReadProofs.v: the cases of GetBlock in any memory and on any disk, without the invariant of C36; refuted by a schedule or input, the strongest true form proved | `PropRead.v` | partial |

## Wrong programs

`seeded/LOG.jsonl` lists the edits of the model the theorems were tried against.  Many of the
runs had a wall-clock limit while the machine was busy, and the script took a proof that ran
into it for one that failed.  Every entry that ran long enough for this carries a note: either
it was run again with a limit on CPU time, against the files of its claim only, or its list of
failed theorems may name some that were only slow.  The other entries finished before any
limit.  A listed theorem is one whose proof no longer goes through, which is what the edit
should cause but is not itself a proof that the theorem became false.

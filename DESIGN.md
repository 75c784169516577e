# Formal model of netsec-ethz/fpki in Rocq

Sources are read from `/repo` (not built, not run, not changed). Everything below lives in
`/verif/rocq/theories`. Build: `coq_makefile -f _CoqProject -o Makefile && make -j4` in `/verif/rocq`.

## Method

* One *model* file per group of Go functions (`*Model.v`): total, computable Gallina functions that follow
  the Go code function by function. Every definition cites file and lines. No proofs in model files.
* One *spec/proof* file per group (`*Proofs.v`, `*Spec.v`): the specification is written independently of
  the model (finite maps, sets of indices, lists), and the lemmas that connect both.
* `Properties*.v`: only the final theorems (`Theorem Cxx_... . Proof. exact ... . Qed.`), an `Example`
  that shows that the hypotheses can be met in a non-trivial way, and `Print Assumptions`.
* External functions (SHA-256, RSA, JSON text, SQL server, public suffix list) are section variables or
  explicit state; every assumption made on them is a visible hypothesis of the theorem.
* If the code violates a property, the model keeps the bug, a theorem `..._refuted` exhibits a witness, and
  a further theorem (suffix `_partial`) proves the property under the exact condition that excludes the bug.

## Conventions

* A byte is `Byte.byte`; a byte slice is `list byte`; `nil` slices and empty slices are identified unless the
  code distinguishes them. Errors are `Err`, panics are `Panic` (type `res`).
* Go `int`/`uint64` are `Z`/`N`/`nat`; wrap-around is modelled where a property depends on it (said there).
* Goroutines are transition systems; every interleaving of the listed atomic steps is covered.
* Hash collisions: because any 32-byte hash has collisions, "or there is a collision" would be trivially
  true. Soundness theorems assume instead that the hash does not collide *on the finite list of strings
  hashed in the tree and in the verification at hand*.

## Plan per property

| Id | Modelled | How it is proved |
|----|----------|------------------|
| C01 | trie `update` and all helpers on 31-slot batches, caches and DB (`TrieModel`) | representation relation batch store <-> pure tree `build m`; induction on height; refuted for the straddled deletion, proved when no deleted one-key subtree is straddled |
| C02 | same | corollary: root = hash of `build m`, invariant under permutation of `m` |
| C03-C05 | `get`, `merkleProof`, verifiers | induction on height through the representation relation |
| C06, C07 | verifiers against `build m` | induction on the path, no collision on the finite list of hashed strings; C07 refuted (proof key = key) and proved when they differ |
| C08 | compressed prover and verifiers | induction on the path |
| C09 | `serializeBatch`/`parseBatch` | list induction over slots and bitmap |
| C10 | `Commit` with removed set | frame argument on stored hashes; refuted for unchanged values; proved for effective batches |
| C11 | update as a program over shared node store, interleaving semantics | independence (diamond) of disjoint footprints |
| C12 | verifiers with panics | refuted (path longer than 256); totality for path <= 256 and 32-byte keys |
| C13 | `splitKeys`, `bitIsSet` | induction on sorted list |
| C14 | prover client | from C06/C07 |
| C15 | `ParseDomainName`, `GetProof` | list induction on labels |
| C16 | bundle cursor | invariant: returned ++ remaining is a permutation of dirty |
| C17 | `CheckCertsExist` | refuted at positive multiples of 1000; proved otherwise |
| C18, C25 | SQL procedures as functions on relations | closure by induction on chain depth |
| C19, C20 | updater input, bundle loop | sort lemma; C01 iterated |
| C21, C22, C30 | statement lists with crash points | prefix of statements; invariants |
| C23, C24 | slice compaction | induction on mask; C23 refuted |
| C26-C29 | journal intervals over uint64 | set semantics of interval lists; refuted at the largest index; C29 refuted |
| C31, C32 | batching loop, directory walk | induction; C32 refuted |
| C33 | fast row parser vs CSV grammar | induction on the line |
| C34, C37-C41 | pipeline stages as transition systems | invariants over all schedules; C34 refuted |
| C35, C36 | fetchers | induction on chain / responses |
| C42, C43, C47 | spin lock, presence cache, ring | invariants |
| C44-C46 | sharding, batchers, LRU | arithmetic; list induction; C44 and C46 refuted |
| C48-C55 | policy objects and crypto with abstract signatures | case analysis; C50, C52, C53, C55 refuted where noted |
| C56, C60-C62 | generic helpers | multiset invariants over the in-place loops |
| C57, C58 | duration text, time of day | arithmetic; C58 refuted for non-UTC zones |
| C59 | update loop as transition system | refuted; proved for at most one error |

## Trusted base

* The Coq 8.16.1 kernel; the compiled files are also checked with `coqchk`.
* Axioms: none. `Print Assumptions` is written under every property theorem and prints "Closed under the global
  context" for all of them. No axiom of the standard library is used, no native integers, no extraction, no plugin
  beyond the ones loaded by the standard library (`lia`, `ring`).
* That the model says what the Go code does: by reading only. The comment above each definition cites the code and
  names the simplifications.
* What is assumed about things outside the repository is always a hypothesis of the theorem: a hash of 32 bytes that
  does not collide on the finite list of strings that were hashed; RSA verification accepts what was signed and
  no signature for two digests; a MySQL statement is atomic and does what its text says; the public suffix list is an
  arbitrary function (or an arbitrary list of rules); the file system of `FsModel.v`; channels, mutexes and atomics of
  Go are sequentially consistent.

## What is modelled, and where

| Model | Go code | Property file |
|-------|---------|---------------|
| `TrieModel`, `Sha256` | `pkg/mapserver/trie/*.go`, `pkg/common/hasher.go` | `PropertiesTrie`, `PropertiesTrieRefuted` |
| `TrieParModel` | `trie.go` update with its goroutines (updateParallel, trySpawnUpdateWorker) over the caches of `trie_cache.go` | `PropertiesPar` |
| `ClientModel` | `pkg/mapserver/prover/prover.go`, `pkg/mapserver/common/structure.go` | `PropertiesTrie` |
| `DbModel` | `pkg/db/mysql/{certs,dirty,policies,mysql}.go`, procedures of `tools/create_schema.sh`, the inserting half of `updater.go` | `PropertiesDb` |
| `BundleModel`, `SmtModel` | `mysql.go` retrieval of dirty domains, `updater.go` UpdateSMT, `smt.go`, `responder.go` root reload | `PropertiesSmt` |
| `RoundModel` | `mapserver.go` rounds (pruneAndUpdate, update, updateCerts), `updater.go` updateCertBatch, `dirty.go` CleanupDirty, on top of `DbModel` and `SmtModel` | `PropertiesRound` |
| `LoadModel` | CSV files for the tables: `updater/csv.go` writers, `mysql.go` writeToCSV over encoding/csv, base64 and date text, the LOAD DATA statements of `certs.go`, `dirty.go`, `mysql.go` as the server reads them, `updater.go` insertCerts through the files | `PropertiesLoad` |
| `JoinModel` | link of the two halves of the ingestion: `cmd/ingest/processor.go` getNewLinkFunction, `util/channels.go` SendToAllChannels, with the producing stages and the first database stages as far as they touch it | `PropertiesJoin` |
| `KeyModel` | `pkg/util/pem.go`; DER of public keys of RSA (asn1, MarshalPKIXPublicKey, ParsePKIXPublicKey) as far as used | `PropertiesKey` |
| `WholeModel` | `io.go` LoadCertsAndChainsFromCSV, parseCertFromCSVField | `PropertiesWhole` |
| `HelperModel` | `math.go` Pow, `slice.go` ResizeSlice with its use in `chainToCertWorker.go`, `types.go`, `io.go` LoadPoliciesFromRaw | `PropertiesHelper` |
| `StatsModel` | the counters in `toChainWorker.go` parseLine and `processor.go` createCertificateSink, `join.go` JoinPipelinesRaw, `main.go` printStats | `PropertiesStats` |
| `GrpcModel` | `grpcserver.go` QueryMapEntries, NewGRPCServer, `grpcclient.go` GetProofs, `query.proto` in the wire format of protobuf | `PropertiesGrpc` |
| `CmdModel` | `cmd/ingest/cmdflags/flags.go`, `cmd/ingest/main.go` up to the configuration and configFromFlags, `run.go` validate, `journal.go` NewJobConfiguration, `cmd/mapserver/main.go` mainFunc, with `flag` Parse and `strconv` ParseInt and ParseBool | `PropertiesCmd` |
| `DirModel` | `cmd/ingest/run.go` recordctsize and deriveCTLogURLFromIngestDir, `mysql/certs.go` LastCTlogServerState and UpdateLastCTlogServerState, with `path/filepath` Clean and Base and `net/url` Parse and String for URLs with a host | `PropertiesDir` |
| `ServeModel` | `cmd/mapserver/main.go` run and runWithConfig, `util/signal_handler.go` ContextWithCancelOnSignal, the goroutines of `mapserver.go` NewMapServer and listen, `util/ticker.go` RunWhen | `PropertiesServe` |
| `TempModel` | `pkg/util/noallocs/{string,tempfile,file,ringcache}.go`, the calls in `updater/csv.go` writeCSV and writeCertCSV, the stages of `certsWorker.go` and `domainWorker.go` that create, insert and remove files | `PropertiesTemp` |
| `SignalModel` | `cmd/ingest/main.go` main, mainFunction, startIngestSignalHandler, signalExitCode, with `cmd/ingest/run.go` runIngest and ingestFilesInBatches, the mutex and Close of the journal, `pkg/util/atexit.go` | `PropertiesSignal` |
| `JournalText` | `cmd/ingest/journal/journal.go` Journal, Job, JobConfiguration, write, read, normalize, MarshalJSON, UnmarshalJSON, with `encoding/json` MarshalIndent | `PropertiesJournalText` |
| `MeshModel` | `updater/manager.go` createPipeline (275-282), with `pipeline/stage.go` processThisStage, sendOutputsConcurrent, breakPipelineAndWait, aggregateNextErrChannels, readIncomingConcurrently | `PropertiesMesh` |
| `WireModel`, `WireSpec` | `cmd/ingest/processor.go` NewProcessor, createFilesToCertsPipeline, getNewLinkFunction; `updater/manager.go` createPipeline; `pipeline/join.go`, `stage.go` linking and preparing | `PropertiesWire` |
| `InsertModel` | `cmd/mapserver/main.go` insertPolicyFromFile, `pkg/util/io.go` PolicyCertificateFromBytes | `PropertiesInsert` |
| `IssueModel` | `pkg/domainowner/domainowner.go`, `pkg/pca/pca.go` (NewPCA, requests, the calls of the log servers), `SignPolicyCertificateTimestamp` | `PropertiesIssue` |
| `DsnModel` | `pkg/db/conf.go`, `pkg/db/mysql/conf.go`, `pkg/db/mysql/init.go` Connect up to sql.Open, with `net/url` and the ParseDSN of the driver | `PropertiesDsn` |
| `ConfModel` | `pkg/util/time_wrap.go`, `pkg/util/time.go`, `pkg/mapserver/config/config.go`, `pkg/db/conf.go` Configuration, `pkg/pca/config.go`, with `encoding/json` and `time` of the library for these types | `PropertiesConf` |
| `SchedModel` | `pkg/util/ticker.go` RunWhen with the timer and ticker of Go 1.23+ | `PropertiesSched` |
| `LocalModel` | `pkg/mapserver/logfetcher/locallogfetcher.go` (listFiles, ingestWithCSV, processIncomingFiles, StartFetching, NextBatch for one update), the recorded size in `updater.go` UpdateNextBatch | `PropertiesLocal` |
| `PemModel` | `pkg/util/certReader.go`, `certWriter.go`, their users in `certificate.go` and `io.go`, RSAKeyFromPEM, RSAKeyToPEM; Decode and Encode of `encoding/pem` | `PropertiesPem` |
| `ApiText`, `ApiModel` | `mapserver.go` apiGetProof and apiGetPayloads with the texts of requests and answers, `responder.go` GetProof with the lists of ids, the payload queries of `certs.go`, `policies.go`, `common.go` | `PropertiesApi` |
| `LogTreeModel`, `LogTreeSpec` | `logverifier/verifier.go` and, from its published source, `transparency-dev/merkle` v0.0.2: `proof/verify.go`, `rfc6962`; the tree hash and the proofs of RFC 6962 | `PropertiesLogTree` |
| `LogPoolModel` | policy log client: `policylog/client/concurrentfunc.go` (AddLeaves, FetchInclusions and their workers), `logclient.go` QueueRPCs, readRPCFromFileToBytes | `PropertiesLogPool` |
| `DomainModel` | `pkg/domain/domain.go`, `pkg/util/domain.go`, `responder.go` GetProof | `PropertiesDomain` |
| `FetchModel` | `pkg/mapserver/logfetcher/*.go`, `updater.go` NextBatch/UpdateNextBatch, `mapserver.go` updateCerts | `PropertiesFetch` |
| `SyncModel` | `pkg/sync/spin.go`, `pkg/cache/presence_cache.go`, `mapserver.go` update loop, `pkg/pipeline/stall_resume.go` | `PropertiesSync` |
| `PipeModel`, `CrissModel` | `pkg/pipeline/{stage,source,sink,pipeline}.go` | `PropertiesPipe`, `PropertiesCriss` |
| `BatchModel` | `pkg/mapserver/updater/{manager,certsWorker,domainWorker,baseworker}.go`, `pkg/cache/lru_cache.go`, `noallocs/ringcache.go`, round-robin reading in `stage.go` | `PropertiesBatch` |
| `JournalModel`, `ListModel`, `FsModel` | `cmd/ingest/journal/*.go`, batch loop of `cmd/ingest/run.go`, `pkg/util/csv_files.go` | `PropertiesJournal`, `PropertiesFlags` |
| `NamesModel` | the estimate of rows before the batches of `cmd/ingest/run.go` ingestFilesInBatches | `PropertiesNames` |
| `CsvModel` | `cmd/ingest/fastcsv/fastcsv.go`, `csvSplitWorker.go`, `toChainWorker.go`, `chainToCertWorker.go`; reader of `encoding/csv` | `PropertiesCsv` |
| `PolicyModel` | `pkg/common/{policies,embedded_policies,policy_issuance}.go`, `pkg/common/crypto/crypto.go`, `pkg/pca/pca.go` | `PropertiesPolicy` |
| `JsonText`, `JsonModel` | `pkg/common/json.go`, `policy_common.go` Raw, the tags of `policies.go` and `embedded_policies.go`; encoding/json as far as used: strings, numbers, objects, arrays, members by name, RawMessage, time.Time | `PropertiesJson`, `PropertiesUtf8` |
| `UtilModel` | `pkg/util/{slice,sort,deduplicateSlice,duration,time,time_wrap,certificate}.go`, `pkg/common/ids.go` | `PropertiesUtil` |

`SysModel`/`SysProofs` hold the common part of the concurrency models: a partial step function, schedules as lists of
actions, stuck states, fairness, and the lemma that turns a decreasing measure into termination.

## Not modelled

* gRPC (except the messages and the handler of the map server), HTTP (except the texts of the two requests of the map server), the policy log servers and configuration (`pkg/policylog`, except the client), the other
  command line flags, tracing, statistics (except the counters of the ingest command), the profiler, test helpers, the benchmark command.
* X.509 and ASN.1 parsing (except public keys of RSA), TLS, gzip,
  RSA and SHA-256 as mathematics (SHA-256 is implemented in `Sha256.v` and used by
  examples and witnesses, the theorems hold for any hash function).
* The SQL server: locks, isolation between sessions, deadlock errors, column lengths, the order of rows without
  ORDER BY. A statement is one step.
* Memory: garbage collection, the unsafe conversions in `noallocs` (except that a file name is a pointer into its buffer), data races of plain Go variables (except where a model
  says so: the presence cache, the fields of the fetcher). Slices share their array only in the models where
  a property depends on it (`UtilModel` glueing of ids, `BatchModel` ring of buffers).
* Time limits, contexts (except cancellation in the fetcher, the update loop and the ingest command), signals (except those of the ingest command and the map server).

## Status

Generated from `MANIFEST.json`. "Partial" covers two cases: the property holds under the stated condition only and
is false of the code without it (then there is a `_refuted` theorem with a witness), or a part is not proved yet.

| Id | Title | Status | Note |
|----|-------|--------|------|
| C01 | Trie Update behaves as a map override | partial | Proved for all histories whose batches change every key they name, do not delete the only key of a subtree between two other batch keys, and where no two keys differ in the last bit only. Each excluded case is false of the code (refuted theorems). |
| C02 | The root depends only on the content | partial | Same histories as C01; root equality is equivalent to content equality. |
| C03 | Get returns the stored value | partial | For contents where no two keys differ in the last bit only; reads interleave with updates in C01_partial. |
| C04 | Inclusion proofs are complete | partial | For the histories of C01. Refuted for a batch that sets a key to the value it has: no proof for the key any more. |
| C05 | Non-inclusion proofs are complete | partial | For the histories of C01. Refuted for other deletions: a deleted key is proved to be included. |
| C06 | Inclusion proofs are sound | partial | Key and value of 32 bytes, path elements of legal length, collision-free strings; both length conditions are needed (refuted without). |
| C07 | Non-inclusion proofs are sound | partial | False of the code as stated; true with the checks the verifier omits. |
| C08 | Compressed proofs are equivalent to plain ones | partial | Equivalent for every path and every non-nil root; on the empty trie the compressed verifier refuses the honest proof. |
| C09 | Node batches survive serialization | proved |  |
| C10 | Commit makes the updated trie durable | partial | Histories of C01 with at most one update between commits. |
| C11 | Parallel and sequential update agree | partial | Interleavings of single accesses to the caches, the database and the shared batches, nested to any depth. Missing: batches that hit the defects excluded by the histories of C01. |
| C12 | Proof verification is total | partial | Total on paths of at most 8 elements per key byte; longer paths and missing entries panic. |
| C13 | Splitting sorted keys at a bit is exact | proved |  |
| C14 | Client accepts only what the map server's root commits to | partial |  |
| C15 | Proof responses cover every parent domain | partial | Which names are accepted; which names the answer is about, in order and without repetition, with an accepted proof for each: for names whose public suffix is in the ICANN section. Refuted: private suffixes (parents left out), unlisted top level names (not refused), a registered name www.<suffix> (refused). The public suffix list is any function, or any list of rules. |
| C16 | Dirty-domain bundling visits each domain once | proved |  |
| C17 | Certificate existence check is exact | partial | Refuted: with a positive multiple of 1000 ids the last 1000 are reported missing. Exact for every other length; a positive answer is always right. |
| C18 | Coalesced payload is the certificate closure of the domain | proved | For every interleaving of the partition workers and any restarts; termination under fairness assumes parent chains shorter than the recursion limit of the server. |
| C19 | Domain rows become well-formed trie input | proved |  |
| C20 | SMT update is independent of bundling | partial | Proved when every dirty domain changes its value, no key is deleted between two other keys of the update below a prefix that becomes empty, and the tree does not become empty; refuted in each of these cases, including a root that depends on the bundle size. |
| C21 | SMT update survives a crash | partial | Proved up to the first statement of the run. Refuted after the first DeleteTreeNodes (neither old nor new tree readable, re-run fails) and after SaveRoot (re-run deletes the tree). |
| C22 | Certificate ingestion survives a crash | partial | Proved for UpdateWithOverwrite. Refuted for UpdateWithKeepExisting: a crash after the first statement is never repaired. Partial: crashes outside the four certificate statements. |
| C23 | Keep-existing update stores matching expirations | partial | Refuted: expirations are not compacted together with the other slices. Everything else about the stored rows is proved; own expiration if everything before is new. |
| C24 | Filtering by presence keeps order and pairing | proved |  |
| C25 | Pruning removes exactly the expired certificates | partial | Exact relative to the cut passed to the database, also across a crash. Refuted for the time: local wall clock compared with UTC, and fraction of the second dropped. The associations are kept, not dropped. |
| C26 | The journal records exactly the completed files | partial | For histories of opens, commits and failing writes with file ends below 2^64-1. Refuted at the largest index: canMerge wraps around and overlapping intervals stay apart. |
| C27 | Pending files are exactly the uncovered ones | partial | Same bound; at the largest index a fully covered file is reported as pending. |
| C28 | The journal file round-trips | proved | Interval strings, encoded indices and normalisation; the JSON text around them is C93. |
| C29 | Recorded CT log size never over-claims | partial | Proved when index 0 is ingested; refuted when the first completed interval starts later: the code does not look at its start. |
| C30 | The journal survives a crash during writing | proved | Process death: previous or new content for any earlier writes and any cut. Machine death: never torn; but the directory is not synced, so a successful write may be undone. |
| C31 | File batches tile the pending files | proved | The journal-coverage part of C31_run assumes file ends below 2^64-1 (see C26). |
| C32 | File listing is complete | partial | Proved if no subdirectory sorts before a sibling "bundled"; refuted otherwise: the files gathered before are overwritten. |
| C33 | The fast CSV path agrees with the standard parser | partial | Proved for all lines without an inner line break (the only ones the reader hands over). Refuted: a row with an empty certificate column is refused without a fall back; with an inner line break the two parsers differ. |
| C34 | A failing input stream fails the pipeline | partial | Refuted, for every pipeline: an error of a streaming function has the same effect as the end of the stream. |
| C35 | The local log fetcher finds the maximal contiguous chain | partial | For all sets of files with start <= end, all iteration orders: ends; chains are the longest; the reported state is the end of the longest part within the ingestion limit and exactly its files are read. Refuted without start <= end: a file named 5-4.gz makes the recursion infinite. |
| C36 | The HTTP log fetcher returns exactly the requested entries | partial | The download is proved for every range, batch size and split by the server. The delivery by the background goroutine to the updater is proved for every schedule in which no update starts while the goroutine of a failed one is still at work; refuted otherwise: wrong entries, or a panic. |
| C37 | Shared output channels close once, after all senders | proved | For every number of senders (at least one) and receivers, all items and errors, every schedule: the shared channel is closed at most once and then every sender is past closing, no send or close panics; every fair schedule ends with exactly one close, all senders done, every receiver having seen the end or failed itself; items are received exactly once. Beyond the property: of several receiver errors only one reaches the senders and the forwarding goroutine then stays blocked (C37_second_error_refuted, C37_blocked_for_ever). |
| C38 | A linear pipeline delivers everything exactly once, in order | partial | Every number of stages and items, every schedule: termination, no deadlock, exactly once. In order for stages that send sequentially or have at most one output at a time; refuted for the default sending mode with several outputs of one call. |
| C39 | Errors reach the caller | partial | Proved for stages with at most one output at a time or the cycles-allowed mode; refuted for the other modes with three outputs of one call: the error is overwritten by nil. That all stages stop is proved for all pipelines. |
| C40 | Round-robin input reads everything | proved | For every number of channels and any contents. The documentation also promises index order, which fails once a channel is closed (refuted). |
| C41 | Stalled work runs alone | proved | Every schedule of any number of stages, evaluating and stalled ones, with the decisions to stall arbitrary. The function that runs while stalled is one step. |
| C42 | The ordered lock serializes workers in order | partial | One use of the lock, any number of workers, every schedule. Refuted for a second use of the same lock: two workers inside, out of order (activeID and finishedID are not reset). |
| C43 | The presence cache never forgets or invents | proved | Every interleaving of the atomic accesses of any number of threads. Size() and the sharding by the first byte are not part of the concurrent model. |
| C44 | Work is sharded within range and consistently | partial | In range exactly for powers of two up to 256; refuted otherwise (3 workers: index out of range). |
| C45 | Batching loses nothing | proved | For every positive batch size; with size 0 the domain batcher loses items (panics in Go). |
| C46 | Deduplication keeps every association | partial | Refuted: the domain cache drops the pair of an already seen domain with a second certificate. |
| C47 | Ring-cached buffers are not overwritten while in use | proved |  |
| C48 | Policy domain validity follows the allow and deny lists | proved |  |
| C49 | Attribute validation refuses contradictory lists | proved |  |
| C50 | Equality of policy objects is an equivalence that respects content | partial | Refuted for times with monotonic readings (transitivity) and for revocations, which compare times with ==; proved otherwise, in particular for decoded copies of certificates and requests. |
| C51 | Owner signature verification does not depend on later stages | partial | RSA and SHA-256 are parameters, and the JSON text is one that C72 instantiates. A failed verification loses fields if the JSON encoding fails; everything else is proved. C72_signature_partial says what the signed text fixes. |
| C52 | Issuer constraints are enforced | partial | The domain condition is inverted in the code: refuted in both directions; the validity period is enforced. |
| C53 | PCA skips the cool-off period only for the owner's own renewals | partial | Only if holds; the other direction is false for every history because of the different keys for storing and looking up. |
| C54 | ID sets hash independently of order | proved | Slices are modelled over a heap of arrays, so aliasing with the caller is covered. |
| C55 | Unfolding chains yields each certificate once with its parent | partial | All rows with the right parents are proved; "each once" is false for a parent shared by two chains, and UnfoldCert panics on an empty chain. |
| C56 | Slice removal helpers remove exactly the given positions | proved | Includes the sort of the indices with arbitrary random pivots. |
| C57 | Durations round-trip through text | partial | Round trip proved for every int64; refusal of malformed text is false (Atoi errors and overflow ignored). |
| C58 | The next time of day is in the next 24 hours | partial | Holds in UTC up to equality with now; false in other zones. |
| C59 | The map server's update loop never wedges | partial | Holds when the reload gives no error and the context is not done; refuted otherwise: an error of the reload blocks the server for ever, and a call after cancellation panics. |
| C60 | Coalescing errors loses none | proved |  |
| C61 | Deduplication helpers keep one of each | proved |  |
| C62 | Sorting returns a sorted permutation | proved | For every stream of random pivots; strict total order assumed (no NaN). |
| C63 | Journal phase flags are truthful | partial | For every sequence of runs, failures and interruptions: completed means ingested, and updated means updated afterwards. Coalesced is truthful unless the strategy onlysmtupdate is used on a state that is not coalesced (refuted: the flag is then set without coalescing). |
| C64 | After an update every response verifies at the client | partial | Same conditions on the update as C20. Refuted for a dirty domain whose entry did not change: no response for it any more. |
| C65 | An ingested certificate is found by asking for its names | partial | Found for names without "*." and "www." in front. Refuted for all others: they are stored under the literal name but looked up without the prefix; wildcard names are in no answer at all. |
| C66 | The recorded size of a log is truthful | partial | Every schedule, with failures and restarts, in which no update starts while the goroutine of a failed one is still at work. Refuted otherwise: the size is recorded with an entry missing. |
| C67 | Reading line by line gives the records of the file | partial | Proved for all files without two carriage returns in a row. Refuted: with two, the last column differs; empty lines and quoted line breaks end the reading although encoding/csv accepts them. |
| C68 | Every certificate of an unexpired row reaches the database stage | partial | All certificates are sent if chains agree on what follows a certificate, no leaf is in a chain, all rows are accepted and hashes do not collide. Nothing else is ever sent. Refuted otherwise: a parent dropped but cached, a leaf seen as a parent before, an empty chain column. |
| C69 | Rounds end to end: the accepted answer speaks about exactly the certificates of the name | partial | Proved for every sequence of complete ingestions, prunings and coalescings (also interrupted ones) and tree updates that satisfy legal_update (see C20). For batches made of chains it is enough that hashes of certificates do not collide and no certificate is both a leaf and in a chain; without that it is refuted: a certificate seen first in a chain never appears under its own names, and a pruned certificate that comes back in a chain leaves the payload of its domain stale. |
| C70 | The estimate of rows agrees with the journal about file names | partial | Proved while all pending indices are below 2^63. Refuted beyond: the estimate parses into signed integers, so one pending file with a larger index, which the journal accepts, ends every run before anything is ingested. |
| C71 | The CSV files loaded into the database give exactly the rows written | partial | Proved for all certificates, dirty domains and associations, and for names without comma, line break, backslash or leading quote (raw writer) or without backslash (encoding/csv), other than NULL. Refuted otherwise: common names are not filtered, the raw writer does not quote, and a name with a line break adds a row for any other domain id, whose true name is then ignored. |
| C72 | Policy objects survive their JSON text | partial | Proved for all objects whose strings are UTF-8 and whose times have offsets of whole minutes; what is read in the other cases is proved too. Refuted for them: two domains with one text and one signature, a signature that no longer verifies after reading, an instant moved by the seconds of the offset. Pointers to pointers are written but not read, nil pointers panic, and many texts give one object with different Raw. |
| C73 | The joined halves of the ingestion deliver every certificate to both stages and end | partial | Order and exactly-once delivery proved for every schedule; the end proved when stages of the database half fail only at the end of their input. Refuted otherwise: the goroutines in between do not listen for errors, so after an error of a batcher or extractor one that holds a further certificate for it blocks for ever, the channels are never closed and the ingestion never returns. |
| C74 | The workers of the policy log client handle every leaf once and end | partial | Proved for at least one leaf and one worker, when calls return. Refuted: no leaf panics, no worker hangs, the list of failed leaves always starts with an empty leaf, and a worker that gets an empty proof (a log with one leaf) asks for ever. |
| C75 | QueueRPCs adds every RPC file to the log and reports the rest | partial | Proved when all files are readable, there is one, and the log comes to the expected size. Refuted otherwise: RPCs read before an unreadable file are removed and never added, an empty directory panics, leaves of others or an uncounted tree size make it wait for ever, and the errors of adding are not reported. |
| C76 | The log verifier accepts exactly the inclusion proofs of RFC 6962 | proved | Against the top-down definitions of RFC 6962 (tree hash, PATH), for any hash function with 32 bytes (sha256_length: SHA-256 is one). Soundness gives the leaf, its index and the whole path, or an explicit collision among the strings hashed by the log and by the verifier. The library code is modelled from its published source. |
| C77 | VerifyRoot accepts only roots of a log that was only appended to | partial | Accepts RFC 6962 PROOF(m, D[n]). Sound when every node has 32 bytes, or when both roots are roots of logs; refuted in general: the library does not check node sizes, a root of no log is accepted (with SHA-256 and no collision). |
| C78 | A leaf verified with an older root is in the newer log | partial | Sound when the nodes of the consistency proof have 32 bytes; refuted: with nodes of 31 and 33 bytes a leaf hash is accepted that is the hash of no leaf of the log. |
| C79 | One right inclusion proof among several is enough | partial | Holds when the proofs before the right one have an index in the tree and the right number of nodes; refuted: a proof with a wrong number of nodes or a negative index before it gives an error, a nil pointer a crash. |
| C80 | The payload interface answers each id with its payload or null, in order | partial | Holds when the query is answered completely, for 1 up to the number of ids at which the SQL statement is too long (no id at all is refused, as a syntax error). Refuted when the connection breaks while rows are read: rows.Err is not asked, stored payloads are answered as null. |
| C81 | From a domain name to verified payloads, end to end | partial | For names not marked dirty, in every reachable state; batches carry the hashes of the certificates as ids (C81_chains_partial: batches made from chains do). Refuted while a pruned name is still dirty: an accepted answer lists an id whose payload is null. The client does not compare the lists with the verified value: an answer with other lists is accepted (C81_other_lists_refuted); with that comparison the lists together are bound to the tables (C81_lists_partial). Tree-level conditions as in C14 and C69. |
| C82 | Proofs survive their JSON text | proved | 32-byte arrays (as typed in Go), int64 proof type, UTF-8 names (those the server answers with are ASCII). |
| C83 | PEM files are read as the certificates and keys they hold | partial | For texts of blocks as pem.Encode writes them (types without dash, colon and line break, no headers) with lines without dashes around them, and readers that do not fail. Refuted otherwise: cut and malformed blocks are left out without an error, text behind an END line makes the result depend on the pieces, a text without certificates gives an empty certificate instead of nil, a text without PEM makes RSAKeyFromPEM panic, a failed read loses what was buffered. |
| C84 | Local files are delivered completely and once | partial | For all schedules of one update, all numbers of goroutines and batch sizes, all files whose rows can be parsed: every certificate is delivered once, expired rows are counted, batches are full but the last, it ends without a panic; with the folder model of C35, the target is recorded if the files have as many rows as their names say. Refuted otherwise: one malformed row, or a certificate without chain, makes the process panic; a file with fewer rows is never recorded; rows of an unreadable file can be lost although the size is recorded; a missing folder panics and a foreign file name stops the update. Not modelled: a new update while goroutines of an old one are alive, cancelled contexts. |
| C85 | Updates run at the configured times | partial | For all schedules: no call before the time, no overlap, the k-th call at least k intervals after the first, no bursts, no end without a cancellation. For schedules without delays of the runtime: the exact beginning of each call; on the grid without gaps if all calls are shorter than the interval, so once a day at the configured time in UTC. A cancellation while waiting for a tick stops it; during a call, unless that call passes a point of the grid. Refuted: the first call takes place even if the context was cancelled before; any number of calls can follow a cancellation if they are long; after a long call the next begins off the grid; an interval of 0 (UpdateTimer missing) panics at the first tick. Not modelled: jumps of the wall clock. |
| C86 | Times of day survive being written and read | partial | The accepted texts are characterised by a grammar (iff). Written with 0, 3, 6 or 9 decimals, the shortest of these layouts that reads back as the same time. Refuted for whole time.Time values: the year is not written, so an unset UpdateAt (year 1) comes back as year 0; decimals after the ninth are dropped silently. Modelled: time.Parse and Format for these layouts in UTC. |
| C87 | Configuration files survive writing and reading | partial | Round trips on the exact text (escapes, indentation, sorted keys, case-insensitive names), maps up to the order of their entries. Refuted: folders whose path is not UTF-8 change and can become one entry; reading a PCA configuration into one in use keeps its old key; null is an error for UpdateAt. The file system is not modelled: a file holds what was written. |
| C88 | The database connection is the configured one | partial | Proved under conditions on the characters for the three forms (password, no password and no port, socket), and for the ingest command in any environment. Refuted: a port without a password is always refused, so is a password for a user with an underscore; upper case users become lower case; a # in a password puts the parameters into the password; a socket ignores the password. url.Parse is modelled but for texts with an authority (two slashes at the begin); ParseDSN of the driver before its defaults. |
| C89 | Policy certificates issued by a PCA are right, logged and renewable | partial | Proved: the values, the PCA's signature and the owner's, one answer of each log with its own key about a certificate with the same values, the order of the calls, nothing stored on errors, loading, numbers of the PCA's own requests. Refuted: serial numbers of the owners' requests, constraints, registered only if returned, logs with one key, renewal. The timestamps are about a signature that is replaced and verify with nothing that is in the certificate (C89_timestamps_lost). |
| C90 | A policy certificate inserted with the command is served | partial | Proved for every file and every state that rounds and insertions reach (conditions of C69: legal_update, no collision of policies). Refuted: a process that dies after the third of four statements leaves the policy stored and not associated, and no later run repairs it; a policy certificate without domain cannot be asked for; the id is not that of the file as the other reader gives it. |
| C91 | The stages of an ingestion are linked as drawn, and all of them end | partial | Proved for all positive numbers of workers. Refuted: three goroutines of the skipped sink never end, for all numbers; with no file readers, parsers or dechainers Wait returns nil before anything is read. C91_everything_ends and C91_nothing_ends_early are about which ends enable which (no stage fails); the schedules of one criss-cross, stage and join are C37, C15 and C73. |
| C92 | The mesh of domain extractors and domain batchers delivers every domain once, and ends | partial | Delivery and errors are proved for all runs. Ending is proved when batchers fail, if at all, only on their last batch. Refuted otherwise (C92_ends_refuted; C92_jam for all sizes): the error of a batcher is read by one extractor only, and another one with two more domains for it waits for ever, and so does the first. |
| C93 | The text of the journal file is read back as written | partial | The round trip is proved for all journals whose directory names are UTF-8; strings that only inform are repaired. Refuted for the others: the completed indices of such a directory are read under another name, and those of two such directories become one. |
| C94 | Interrupting the ingest command leaves a correct journal and ends it | partial | Proved for all interleavings, for files whose last index is below 2^64-1 (C26). The statement about signals is refuted when it is read for signals sent: a SIGINT is dropped while a SIGUSR1 is handled and another one waits in the channel, and all batches run; and of two SIGINT the second is dropped if it comes before the handler took the first. Proved: the first is never lost when only termination signals are sent, and two received ones end the process. |
| C95 | Temporary files: the database loads exactly the files of the batches, and none is left | partial | All is proved except the last sentence, which is refuted: after a failed write the file and the descriptor stay for the rest of the process. The size of the storage that the comment of CreateTempFile asks for is refuted too, and that two buffers would be enough (the code has eight; three are proved to be enough). |
| C96 | A termination signal stops the map server in good order | partial | All sentences but the last are proved. The last one is refuted: nobody tells the HTTP server to stop, it answers until the watchdog panics, the code 0 is never reached (C96_never_zero), an update is cut, and the goroutine of the scheduled updates may panic before the waiting time has passed, on the closed channel. |
| C97 | The map server goes on where the ingest command ended | partial | Proved for URLs without underscores: the directory gives the text that url.Parse and String make of the URL, which is the URL itself if its scheme is in small letters, its host is a plain name with or without a port, and its path has no escapes; user information and addresses in brackets are not modelled. Refuted: for URLs with underscores, that directories with different names record for different URLs, that a record never lowers the size, and that a slash at the end of the URL makes no difference. |
| C98 | The command line decides the configuration | partial | Proved: exactly which command lines are accepted and with which configuration and phases, the codes of the others, and that every configuration can be given; the same for the map server. Refuted: that all arguments are taken into account (flags after the directory are ignored), that accepted numbers can be worked with (negative ones panic; with no readers, parsers or dechainers nothing is read and the run ends without an error), and that digits mean a decimal number (a zero in front makes them octal). |
| C99 | The interface over gRPC answers like the one over HTTP | partial | Proved: the messages and the text arrive as sent; the answer is the one over HTTP for every domain as long as the root is the one that was loaded and the answer fits the limit; in every state of the server (as in C81) it lists exactly the certificates and policies of the tables. Refuted: that this holds at any time (the root is never loaded again: absence is proved for a domain which is present), for any size (4 MiB), and that the call has no other effect (it parses the arguments of the process and may end it). The large answer is shown for tables and a tree that need not belong together. |
| C100 | The statistics of the ingestion are right | partial | Proved: the counters of rows, of time stamps in the past, of certificates, bytes and uncached certificates, at the end for any dealing of the rows, and the two inequalities at every moment. Refuted: that the written certificates are counted (the sink that counts is dropped when the two pipelines are joined; the line always says 0), that rows left out because the certificate has expired are counted, and that the percentages are at most 100 (the counters are loaded one after the other). |
| C101 | The helpers for powers, slices and types do what their comments say | partial | All proved but two parts, which are refuted: growing a slice inside its array changes other slices of the array (exactly the elements between the old and the new length, C101_resize), and timestamps of logs and requests for revocations, which the comment of LoadPoliciesFromRaw names, are refused. Pow is modelled for integers, not for floats. C101_load_back has the conditions of C72 (strings in UTF-8, offsets of whole minutes). |
| C102 | A whole CSV file is loaded with the same certificates as the ingest command reads from it | partial | Proved: which files are accepted and the result (C102_read), and agreement with the line by line reader for the files of C67_same_partial (carriage returns only single), where no panic occurs. Refuted: a record with fewer than five columns panics (C102_short: after any records that can be read), and expired certificates are loaded. |
| C103 | A public key survives its encoding, and an encoding has one key | partial | All proved but the last part, which is refuted: bytes at the end of the sequences inside the text are ignored, so a key has many accepted texts (C103_accepts gives all of them). asn1 and x509 of certificate-transparency-go are modelled as far as they are used, from their documented behaviour; their source is not part of the repository. |

## Findings

Places where the code does not do what its documentation or the property says, found while modelling; the property that
shows it is given in brackets, "(read)" means seen while reading, without theorem.

* F1 Deleting the only key of a subtree between two other keys of a batch: `maybeAddShortcutToKV` re-inserts a deleted key or drops a live one (C01, C02).
* F2 An update that does not change a value marks the node as removed; `Commit` then deletes a live node (C01, C10).
* F3 `VerifyNonInclusion` accepts a proof of absence built from the leaf of the very key (C07, C14).
* F4 Verification panics for a path longer than 256 (C12).
* F5 A nil root makes every proof of absence valid (C07).
* F6 The update loop sends a second error on a channel nobody reads: the server stops updating for ever (C59).
* F7 `UpdateWithKeepExisting` compacts ids, parents and payloads but not the expirations (C23).
* F8 A crash between the statements of `UpdateWithKeepExisting` is never repaired by a retry (C22; same for policies).
* F9 The root is saved only after all bundles are committed: a crash in between leaves neither the old nor the new tree (C21).
* F10 The LRU cache of domains drops the pair of a known domain with a second certificate (C46).
* F11 The shard index is out of range unless the number of workers is a power of two; F55 more than 256 workers all map to worker 0 (C44).
* F12 `CheckCertsExist` reports the last 1000 ids as missing if their number is a multiple of 1000 (C17).
* F13 Revocations compare times with `==` (C50). F39 `Time.Equal` uses monotonic readings, not transitive (C50).
* F14 `VerifyIssuerConstraints` is inverted (C52).
* F15 The PCA stores and looks up under different keys (C53).
* F16 `UnfoldCerts` returns a shared parent once per chain (C55). F34 `UnfoldCert` panics on an empty chain (C55).
* F17 `canMerge` wraps around at the largest index (C26, C27).
* F18 The directory listing forgets files gathered before a directory named `bundled` (C32).
* F19 `completedCTLogSize` ignores where the first interval starts (C29).
* F20 The error of a streaming function is indistinguishable from the end of the stream (C34).
* F21 A leaf is skipped if its id was cached as a parent (read).
* F22 A file name with end before start makes `getGzFileChain` recurse without end (C35).
* F23 `ParseDuration` ignores errors and overflow of its numbers (C57).
* F24 `NextTimeOfDay` mixes local time and UTC (C58).
* F25 `byte(256)` in the leaf encoding equals `byte(0)` (C07). F26-F29 Ambiguities between leaves, nodes and values of unusual length (C06, C07).
* F30 The compressed verifier refuses the honest proof on the empty trie (C08).
* F31 The client does not check that the proof is about the domain it asked for (C14). F33 A missing entry panics the client (C12).
* F32 Names under a private public suffix lose parents (C15). F62 `www.<suffix>` is refused (C15).
* F35 The journal flag "coalesced" is set by a run that only updates the tree (C63).
* F36 The file name expression has an unescaped dot; errors while sorting by name are dropped (read, modelled in `ListModel`).
* F37 A failed verification loses fields of the object if encoding fails (C51).
* F38 The directory of the journal is not synced after the rename (C30).
* F40, F43 Pruning compares local time with UTC, and drops the fraction of the second (C25).
* F41 GROUP_CONCAT is cut at 1024 bytes by default (read). F42 The temporary table of the pruning procedure stays after an error (read).
* F44 `UpdateSMT` panics when the tree becomes empty (C20). F47 Running it again after SaveRoot destroys the tree (C21). F48 The root depends on the bundle size (C20).
* F45 The payload does not separate certificate ids from policy ids (read).
* F46 The responder works with the old root while nodes are being replaced (C21).
* F49 `WithSequentialInputs` loses the index order after a channel closes (C40).
* F50 An error is overwritten by nil, F51/F52 fan-out of several outputs can end too early or lose errors (C39). Order of several outputs of one call is not kept (C38).
* F53 The spin lock cannot be used twice (C42).
* F54 Batch size 0 (C45). F56 `PresenceCache.Size` reads without lock (read).
* F57 An update request after cancellation panics (C59).
* F58 `StreamOutput` returned by onNoMoreData loses the stream; F59 the feeder of a slice source leaks; F61 the default stream function sends outputs again (read).
* F60 The criss-cross error forwarder blocks for ever with two errors (C37).
* F63 Names are stored literally but looked up without `www.` and `*.` (C65).
* F64 Errors while reading local files are only printed (read). F65 A non-fatal parse error in a chain aborts the whole fetch (read).
* F66 The size of a log is recorded only on exact equality with the target (modelled in `FetchModel`). F68 An error of GetProgress, needed for printing only, aborts the update (modelled).
* F69 A row with an empty chain column (a self-signed leaf) is an error that ends the ingestion (C68).
* F70 A parent certificate that follows an already cached one in a chain is put into the cache but not sent; if the chains differ it is never inserted (C68).
* F71 An empty line, an empty certificate column, or a quoted column with a line break ends the reading of the file, although encoding/csv accepts them (C33, C67).
* F72 A certificate seen first in the chain of another one is stored without names; when it is logged itself it counts as existing and is never associated with its names (C69).
* F73 Pruning leaves the associations of removed certificates; when such a certificate comes back in a chain its domain is not marked dirty and its payload stays stale (C69).
* F74 Names go unquoted into the CSV files of the ingestion and are not filtered (common names are taken as they are): a name with comma, backslash, leading quote or equal to NULL is stored wrongly, and a line break adds rows for other domains, whose true names are then ignored (C71). With encoding/csv backslashes are still lost.
* F75 A pending file whose last index is 2^63 or more, which the journal accepts, makes the estimate fail and ends every run before anything is ingested (C70).
* F76 Strings that are not UTF-8 are written with replacement characters: requests for different domains have one JSON text, thus one hash and one signature, and a certificate whose owner signature verifies no longer does after it was written and read (C72).
* F77 A time in a location with an offset of seconds is written with minutes only; the instant changes when it is read (C72).
* F78 Pointers to pointers are written but not read; a nil pointer panics in ToJSON (C72).
* F79 Many texts (space, order, repetition and case of members) are read as one object, each with its own Raw; ids made of Raw differ for one object (C72).
* F81 An error of a database stage can hang the ingestion for ever: the goroutine that forwards certificates does not listen for errors (C73).
* F82 AddLeaves and FetchInclusions panic without a leaf, hang without a worker, and the list of failed leaves starts with an empty one (C74).
* F83 QueueRPCs removes files before adding them (lost if a later file is unreadable), panics if there is none, waits for ever for an exact tree size, drops the errors of AddLeaves (C75).
* F84 The log verifier does not check the sizes of the nodes of a consistency proof: an old root that is the root of no log, and leaf hashes that are not in the log, are accepted (C77, C78). No way to reach the hash of a chosen leaf is known.
* F85 A malformed inclusion proof before the right one makes VerifyInclusionByHash fail, a nil one makes it crash (C79). VerifyRoot accepts anything after an old size of 0, whatever the old root (read).
* F86 The payload queries do not ask for rows.Err: when the connection breaks, payloads that are stored are answered as null (C80). A request without ids is a syntax error of the SQL statement.
* F87 Between pruning and the next tree update an accepted answer lists certificates whose payloads are already gone (C81).
* F88 VerifyProofByDomain looks neither at CertIDs nor at PolicyIDs: answers with other lists are accepted, the client would have to compare them with the value (C81).
* F89 A PEM file that is cut off, or with a malformed block, is read without an error; the certificate is missing (C83).
* F90 CertificateFromPEMFile and CertificateFromPEMBytes return a pointer to an empty certificate if there is none, not nil as documented; RSAKeyFromPEM panics on a text without a PEM block (C83).
* F91 After a failing read CertReader has lost the bytes of its buffer: the next Read goes on behind them (C83). Every empty read without an error doubles the storage, also if there is room left.
* F92 One row of a local file that cannot be parsed makes the map server panic, whatever the schedule; a certificate with an empty chain column is such a row (C84).
* F93 A local file with fewer rows than its name says: everything is delivered, but the size is never recorded, and every update reads the same files again. An unreadable file costs only a printed error; if another file has as many rows too many, the size is recorded and the rows of the unreadable one are lost; a single line that is no CSV makes a file unreadable (C84).
* F94 A local folder that does not exist makes Initialize panic (nil DirEntry in the walk); a file such as read-me.csv in it makes every update fail (C84).
* F95 RunWhen: the wait for the first call does not look at the context, so the function is called although the context was cancelled before; and if a tick is ready at the end of a call, the select may prefer it to the cancellation, any number of times (C85).
* F96 A configuration without UpdateTimer, or with 0s or a negative duration, is accepted; the map server starts, and panics in a goroutine at the first UpdateAt (C85).
* F97 RunWhen: after a call longer than the interval the next one begins at once and not at a multiple of the interval, contrary to the comment (C85).
* F98 TimeOfDayWrap: an UpdateAt that was never set is in the year 1 and comes back in the year 0 after writing and reading; more than nine decimals are accepted and dropped (C86).
* F99 Map server configuration: `"UpdateAt": null` is an error although a missing member is accepted; `UpdateTimer` null, missing or misspelled is silently 0, which is the panic of F96 (C87).
* F100 Configuration files: paths and folders that are not UTF-8 are changed to U+FFFD when written, and two folders can become one (C87).
* F101 pca.ReadConfigFromFile reads into the given configuration: members that were empty when written are left out of the file, so a configuration in use keeps its old key, certificate and logs (C87).
* F102 mysql.Connect passes the DSN through url.Parse: with MYSQL_PORT and no MYSQL_PASSWORD (or a host with a port, or an IPv6 host) it always fails with "first path segment in URL cannot contain colon"; with a password it fails for every user that is no URL scheme, such as fpki_user. The error text contains the password (C88).
* F103 mysql.Connect: with a password the user is changed to lower case; a password with `#` is sent with all parameters inserted into it, and the parameters (isolation level, parseTime) are lost; a password with `?` is refused by the driver (C88).
* F104 With WithLocalSocket, as in the ingest command and the sample configuration, MYSQL_PASSWORD, MYSQL_HOST and MYSQL_PORT are ignored; a socket path with a space or a byte outside ASCII is escaped as a whole and refused by the driver (C88).
* F105 GeneratePolCertSignRequest: the request has CanOwn = false, so once the certificate is in DomainRoots every later request for the domain fails; the fresh private key is neither returned nor stored; NotAfter is one microsecond after the clock; the serial number is always 0, and SignAndLogRequest copies it (C89).
* F106 NewPCA sets no LogServerRequester: SignAndLogRequest panics with a configured log server until the exported field is set by hand. Log servers with the same public key collapse to the last one; the test configuration has two such servers (C89).
* F107 SignAndLogRequest: the timestamps of the logs sign the certificate with the first issuer signature, which is then replaced. With the returned certificate nobody can verify them, with or without the new signature and the timestamps (C89).
* F108 SignAndLogRequest checks neither the period, the domain, CanIssue nor the algorithms of an unsigned request; if one log fails in the last step it returns an error although other logs have the final certificate (C89).
* F109 insertPolicyFromFile verifies nothing: a policy certificate without signature, timestamp or period of validity is stored for any domain and served with a proof of presence. One without a domain is stored under the hash of the empty name, which no request can reach (C90).
* F110 insertPolicies is four statements without a transaction and the existence check looks at the third: if the process dies before the fourth, the policy is stored without its domain, and every later run skips it as existing; on an empty tree such a run panics in UpdateSMT (C90).
* F111 The same policy file has two ids: PolicyCertificateFromBytes does not keep the text, so Raw is a fresh text; JsonFileToPolicyCert and LoadPoliciesFromRaw keep the text of the file (C90).
* F112 LinkStagesCrissCross is called for the sink of the first pipeline, which joining skips: the three goroutines started there wait for an error channel nobody closes, and are left behind by every batch of files. If the sink were ever resumed, one of them would close error channels which getNewLinkFunction closes too, and the process would panic (C91).
* F113 The numbers of workers are not checked: with -numfiles 0, -numparsers 0 or -numdechainers 0 the source is told at once that its next stages have ended, Wait returns nil, and runIngest records the files as ingested in the journal although none was read (C91).
* F114 The error channel of a domain batcher is read by all domain extractors, but the error is a single value: one extractor gets it, stops, and then waits for the other batchers to end. Another extractor with two more domains for the failed batcher waits for ever to send the second one, so the other batchers never end either: with two or more workers one failed insertion of domains can hang the ingestion instead of ending it with the error (C92).
* F115 The journal keys completed indices by the name of the ingest directory, and encoding/json replaces bytes of the name that are not UTF-8: after a restart no file of such a directory counts as completed, and the indices of two such directories are merged into those of one of them (C93).
* F116 The ingest command catches signals in a channel with room for one, and the handler writes diagnostics before it looks at the next one and before it cancels. A SIGINT or SIGTERM that comes while SIGUSR1 is handled and another SIGUSR1 waits is dropped and has no effect; the second of two SIGINT in quick succession is dropped too, so that the exit has to be forced by a third one (C94).
* F117 A failed write, open or close of a temporary CSV file leaves the file in the folder, and after a failed write the descriptor too; nobody removes or closes them (C95).
* F118 The comment of `CreateTempFile` asks for storage for the prefix, ten characters and one byte. With a suffix this panics; the suffix has to fit too (C95). An empty prefix panics as well (read).
* F119 On SIGINT or SIGTERM the map server does not stop its HTTP server: nothing sends on `apiStopServerChan`, so it goes on to answer for ten seconds and then ends by the panic of `ContextWithCancelOnSignal`, also in the middle of an update. Code 0 is never returned (C96).
* F120 After a signal the goroutine of `NewMapServer` closes `updateChan`. If then the time of the first scheduled update comes (RunWhen does not look at the context while it waits for it), or `PruneAndUpdate` is called, the send on the closed channel panics at once (C96).
* F121 The URL of a log is derived from the name of its directory by replacing every underscore. A URL with an underscore cannot be written so: its size is recorded for another URL, and the map server starts with 0; two logs whose URLs differ in this only share one directory name (C97).
* F122 `recordctsize` overwrites the row of the map server without a look at it: the size may go down (certificates are fetched again) and the signed tree head becomes NULL. Directories that differ in the case of the scheme only overwrite the rows of each other (C97).
* F123 The URL in the sample configuration ends with a slash, the directories in the documentation do not: then the two programs use different rows, and the map server fetches the whole log again (C97).
* F124 Flags after the directory are silently ignored by the ingest command, and so are further directories: `ingest bundles -strategy=onlyingest` ingests, coalesces and updates the tree. The map server refuses such a command line (C98).
* F125 validate does not look at the numbers: `-numparsers=0` (or `-numfiles=0`, `-numdechainers=0`) is accepted, the ingestion ends without an error and without having read anything, and the files are then recorded as done; negative numbers panic (C98, with C91).
* F126 Numbers with a zero in front are octal: `-numdbworkers 032` means 26 (C98).
* F127 When the reload of the root after an update fails once, the update loop blocks for ever on the error: nobody reads it, every scheduled update takes the default of its select, and the map server answers from then on with what it has, until it is restarted (C96_stale_refuted; C59 has the loop alone).
* F128 The gRPC server loads the root once and has no way to reload it: after an update it goes on proving the absence of domains which are in the tree, and clients accept these proofs, because the root in the answer is not compared with anything; the HTTP server reloads it after every update (C99).
* F129 Answers of 4 MiB or more (about 98000 certificates of one domain) are an error over gRPC, while HTTP delivers them: neither side sets the limit of the library (C99).
* F130 GetProofs and StartWork call flag.Parse, for flags that they then ignore: an unknown flag among the arguments of the program that uses them ends the program with code 2 (C99).
* F131 The statistics always say that 0 certificates and 0 bytes were written: the sink which counts them belongs to the first pipeline, and JoinPipelinesRaw drops the sinks of the first pipeline (C100).
* F132 Rows whose time stamp is in the future but whose certificate has expired are left out like expired rows, but are counted as uncached certificates and not as expired (C100).
* F133 The line of statistics may show more than 100 % of uncached certificates or expired rows, because the counters are loaded one after the other while the workers go on, the total first (C100).
* F134 LoadPoliciesFromRaw refuses slices with SPCTs, SPCRTs or requests for revocations, though its comment names them: they do not implement PolicyDocument (C101).
* F135 LoadCertsAndChainsFromCSV does not check the number of columns (FieldsPerRecord is -1): a line with fewer than five columns panics; expired certificates are loaded, unlike in the ingest command (C102). Nothing calls the function.
* F136 The public key of a policy certificate has many accepted encodings: bytes behind the parts of the inner sequences are ignored by asn1, so the same key can be in certificates whose key fields differ; comparing keys as bytes does not find this (C103).
* F80 FromJSON keeps a part of the slice of the caller as JSONField, not a copy; a caller that reuses the buffer changes the object (not modelled).
* F67 A new fetch while the goroutine of a failed one is alive: wrong entries, entries lost for ever, or a panic (C36, C66).

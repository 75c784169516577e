{"id": "C01", "title": "Trie Update behaves as a map override", "statement": "Starting from a trie that stores a finite map m from 32-byte keys to 32-byte values, Update(keys, values) with strictly increasing keys succeeds and leaves a trie that stores exactly m overridden by the batch: each key with a value other than the default leaf maps to that value, each key paired with the default leaf is absent, and every other key keeps its old value.", "quantifier": "every stored map, every sorted duplicate-free batch mixing insertions, overwrites and deletions (also of absent keys), every cache height limit", "why_tests_cant": "tests try a few hundred random keys; the tree shape (which keys share which prefix, where a one-key subtree sits, which batch keys straddle it) is unbounded", "anchors": ["pkg/mapserver/trie/trie.go: Update, update, updateLeft, updateRight, updateParallel, splitKeys, maybeMoveUpShortcut, moveUpShortcut, maybeAddShortcutToKV, loadChildren, leafHash, interiorHash"]}
{"id": "C02", "title": "The root depends only on the content", "statement": "After any sequence of updates the trie root is a function of the key/value map it stores: two histories that end in the same map end in the same root, in whatever batches and order the changes were made, and deleting a key restores the root the trie would have had without it.", "quantifier": "every pair of update histories (any number of batches, any batch sizes) ending in the same map", "why_tests_cant": "tests compare two orders on a handful of keys; the claim is over all histories", "anchors": ["pkg/mapserver/trie/trie.go: Update, update, maybeMoveUpShortcut, moveUpShortcut", "pkg/mapserver/trie/trie_tools.go: Commit"]}
{"id": "C03", "title": "Get returns the stored value", "statement": "Get(key) on a trie that stores map m returns m(key), and an empty value exactly when key is not in m; it never changes what the trie stores.", "quantifier": "every stored map and every 32-byte key, with nodes held in the live cache, the pending update set, or the database", "why_tests_cant": "the lookup crosses batch borders every four levels and one-key subtrees anywhere; sampling cannot cover all positions", "anchors": ["pkg/mapserver/trie/trie_tools.go: Get, get", "pkg/mapserver/trie/trie.go: loadChildren, loadBatch"]}
{"id": "C04", "title": "Inclusion proofs are complete", "statement": "For every key present in the trie, MerkleProof(key) reports included=true and the path it returns makes VerifyInclusion(root, path, key, value) true for the stored value.", "quantifier": "every stored map and every key in it", "why_tests_cant": "depends on the depth at which the key's one-key subtree sits, 0 to 256, and on every sibling on the way", "anchors": ["pkg/mapserver/trie/trie_merkle_proof.go: MerkleProof, merkleProof, VerifyInclusion, verifyInclusion"]}
{"id": "C05", "title": "Non-inclusion proofs are complete", "statement": "For every key absent from the trie, MerkleProof(key) reports included=false and VerifyNonInclusion(root, path, key, proofValue, proofKey) accepts the returned path and proof leaf (or empty proof key).", "quantifier": "every stored map (also the empty one) and every key not in it", "why_tests_cant": "two kinds of absence witness (empty subtree, other key's leaf) at any depth", "anchors": ["pkg/mapserver/trie/trie_merkle_proof.go: MerkleProof, merkleProof, VerifyNonInclusion"]}
{"id": "C06", "title": "Inclusion proofs are sound", "statement": "If VerifyInclusion(root, path, key, value) accepts against the root of a trie that stores m, and no hash collision occurs among the strings hashed while building that trie and while verifying, then m(key)=value.", "quantifier": "every stored map, every key and value, every adversarial path whose elements have the length of a hash or are the one-byte default leaf", "why_tests_cant": "the path is chosen by an adversary; soundness quantifies over all of them", "anchors": ["pkg/mapserver/trie/trie_merkle_proof.go: VerifyInclusion, verifyInclusion", "pkg/mapserver/trie/trie.go: leafHash, interiorHash", "pkg/common/hasher.go: SHA256Hash"]}
{"id": "C07", "title": "Non-inclusion proofs are sound", "statement": "If VerifyNonInclusion(root, path, key, value, proofKey) accepts against the root of a trie that stores m, and no hash collision occurs, then key is not in m.", "quantifier": "every stored map, key, and adversarial (path, value, proofKey)", "why_tests_cant": "the proof is adversarial; in particular the proof key may be anything, also the queried key itself", "anchors": ["pkg/mapserver/trie/trie_merkle_proof.go: VerifyNonInclusion"]}
{"id": "C08", "title": "Compressed proofs are equivalent to plain ones", "statement": "Compressing the audit path (bitmap of non-default positions plus the non-default elements) loses nothing: the compressed verifier accepts exactly when the plain verifier accepts the path it was compressed from, and the compressed prover compresses the plain prover's path.", "quantifier": "every path of at most 256 elements, every key, value and root", "why_tests_cant": "bit positions and element order must agree for every pattern of default siblings", "anchors": ["pkg/mapserver/trie/trie_merkle_proof.go: merkleProofCompressed, VerifyInclusionC, verifyInclusionC, VerifyNonInclusionC"]}
{"id": "C09", "title": "Node batches survive serialization", "statement": "Serializing a 31-slot node batch and parsing it back gives the same batch, for every batch the trie can produce, one-key (shortcut) batches included; the byte string is 4 + 33 * (number of non-empty slots) long.", "quantifier": "every subset of occupied slots and every 33-byte content, shortcut or not", "why_tests_cant": "2^30 occupancy patterns times contents", "anchors": ["pkg/mapserver/trie/trie_cache.go: serializeBatch", "pkg/mapserver/trie/trie.go: parseBatch", "pkg/mapserver/trie/util.go: bitIsSet, bitSet"]}
{"id": "C10", "title": "Commit makes the updated trie durable", "statement": "After Update and Commit, a trie opened afresh on the same database at the returned root stores exactly the map the updated trie stores (Commit never deletes a node the committed root needs).", "quantifier": "every stored map, every batch (also one that rewrites an existing value or deletes an absent key), every number of Update calls between Commits", "why_tests_cant": "the set of nodes deleted at Commit is collected along the update; whether it hits a live node depends on the whole tree and batch", "anchors": ["pkg/mapserver/trie/trie.go: update, addRemoveNode, deleteOldNode, storeNode", "pkg/mapserver/trie/trie_tools.go: Commit", "pkg/mapserver/trie/trie_cache.go: commitChangesToDB"]}
{"id": "C11", "title": "Parallel and sequential update agree", "statement": "The root and stored node set produced by an update do not depend on whether the two halves of the key set are processed in parallel or one after the other, nor on how the scheduler interleaves them.", "quantifier": "every tree, batch and interleaving of node reads, writes and deletions of the two halves, nested to any depth", "why_tests_cant": "schedules cannot be enumerated by tests", "anchors": ["pkg/mapserver/trie/trie.go: updateParallel, update", "pkg/mapserver/trie/trie_cache.go: CacheDB"]}
{"id": "C12", "title": "Proof verification is total", "statement": "VerifyInclusion, VerifyNonInclusion and the map-server client verification return true or false for every received proof; no received proof makes them panic.", "quantifier": "every byte string received as path, key, value, proof key", "why_tests_cant": "the input comes from the network", "anchors": ["pkg/mapserver/trie/trie_merkle_proof.go: VerifyInclusion, verifyInclusion, VerifyNonInclusion", "pkg/mapserver/trie/util.go: bitIsSet", "pkg/mapserver/prover/prover.go: VerifyProofByDomain"]}
{"id": "C13", "title": "Splitting sorted keys at a bit is exact", "statement": "For strictly increasing keys that agree on the first n bits, splitting the batch at bit n gives exactly the keys with bit n clear followed by exactly those with bit n set, in order; byte-wise order and most-significant-bit-first order coincide.", "quantifier": "every key length, bit position and sorted list", "why_tests_cant": "the update algorithm's partition relies on it at every level", "anchors": ["pkg/mapserver/trie/trie.go: splitKeys", "pkg/mapserver/trie/util.go: bitIsSet, DataArray.Less"]}
{"id": "C14", "title": "Client accepts only what the map server's root commits to", "statement": "If client-side verification of a map server response accepts it as a proof of presence for a domain, then the response's domain value is the one the trie under that root stores for that domain; if it accepts it as a proof of absence then the domain is not stored under that root.", "quantifier": "every response an adversarial server may send (any type tag, value, path, proof key) and every stored map", "why_tests_cant": "adversarial input; also depends on the equality check between advertised and proven value", "anchors": ["pkg/mapserver/prover/prover.go: VerifyProofByDomain", "pkg/mapserver/common/structure.go: MapServerResponse, Proof, PoI"]}
{"id": "C15", "title": "Proof responses cover every parent domain", "statement": "GetProof(domain) returns one entry for the e2LD and each intermediate parent up to the domain itself, in that order and without repetition, each with the proof of its own hashed name; names that are not a valid domain under a public suffix are refused.", "quantifier": "every domain name of any number of labels", "why_tests_cant": "number of labels is unbounded; clients iterate over the list to check all parent policies", "anchors": ["pkg/mapserver/responder/responder.go: GetProof", "pkg/domain/domain.go: ParseDomainName, findAllParentDomains, IsValidDomain"]}
{"id": "C16", "title": "Dirty-domain bundling visits each domain once", "statement": "Retrieving the dirty domains in bundles (cursor over partitions) returns every dirty domain exactly once, in bundles no larger than requested, and reports done only after the last one.", "quantifier": "every distribution of dirty domains over the partitions, every bundle size >= 1", "why_tests_cant": "bundle borders may fall anywhere in any partition, with empty partitions in between", "anchors": ["pkg/db/mysql/mysql.go: RetrieveDomainEntriesDirtyBundle, normalizeDirtyDomainEntriesCursor, activeDirtyPartitions, distributeDirtyBundleRequests, retrieveDirtyDomainIDsForPartition", "pkg/mapserver/updater/updater.go: updateSMTfromDirty"]}
{"id": "C17", "title": "Certificate existence check is exact", "statement": "CheckCertsExist(ids) returns, for each id and in order, whether that certificate is in the database.", "quantifier": "every id list length and every database content", "why_tests_cant": "the list is cut in blocks of 1000 and results are reassembled; the borders matter", "anchors": ["pkg/db/mysql/certs.go: CheckCertsExist, checkCertsExist"]}
{"id": "C18", "title": "Coalesced payload is the certificate closure of the domain", "statement": "After coalescing, the certificate id list stored for every dirty domain consists of exactly the certificates associated with the domain and all their ancestors, sorted and without duplicates, and the stored id is the hash of that list; other domains are untouched.", "quantifier": "every certificate forest, domain association and dirty set", "why_tests_cant": "recursive closure over chains of any depth", "anchors": ["tools/create_schema.sh: calc_dirty_domains", "pkg/db/mysql/dirty.go: RecomputeDirtyDomainsCertAndPolicyIDs", "pkg/mapserver/updater/updater.go: CoalescePayloadsForDirtyDomains"]}
{"id": "C19", "title": "Domain rows become well-formed trie input", "statement": "Turning the retrieved domain rows into trie input yields strictly increasing keys paired with the value of their own domain (the hash of the stored payload, or the default leaf for a domain without payload).", "quantifier": "every set of rows with distinct domains, in any order", "why_tests_cant": "pairing must survive sorting for every permutation", "anchors": ["pkg/mapserver/updater/updater.go: domainEntriesToSMTInput"]}
{"id": "C20", "title": "SMT update is independent of bundling", "statement": "Updating the tree from the dirty domains yields the root of the map overridden with all dirty domains, whatever the bundle size.", "quantifier": "every stored map, dirty set and bundle size", "why_tests_cant": "number and position of bundle borders unbounded", "anchors": ["pkg/mapserver/updater/updater.go: updateSMTfromDirty, updateSMTFromDomainEntries, UpdateSMT"]}
{"id": "C21", "title": "SMT update survives a crash", "statement": "If the process dies at any point of an SMT update, then after a restart the tree reached from the persisted root stores either the old or the new map, and re-running the update produces the same root as an uninterrupted run.", "quantifier": "every crash point between database statements, every dirty set and number of bundles", "why_tests_cant": "crash points are not schedulable by tests", "anchors": ["pkg/mapserver/updater/updater.go: UpdateSMT, updateSMTfromDirty", "pkg/mapserver/trie/trie_tools.go: Commit", "pkg/db/mysql/smt.go: SaveRoot, UpdateTreeNodes, DeleteTreeNodes"]}
{"id": "C22", "title": "Certificate ingestion survives a crash", "statement": "If ingestion dies at any point and the same certificates are ingested again, then in the end every certificate is stored, associated with all its domains, and all those domains have been marked dirty since.", "quantifier": "every list of certificates (some already stored), every crash point", "why_tests_cant": "the retry skips certificates that already exist; what was written before the crash depends on statement order", "anchors": ["pkg/mapserver/updater/updater.go: UpdateWithKeepExisting, UpdateWithOverwrite, insertCerts", "pkg/db/mysql/certs.go: UpdateCerts"]}
{"id": "C23", "title": "Keep-existing update stores matching expirations", "statement": "UpdateWithKeepExisting stores each new certificate with its own payload, parent, expiration and domain names, and leaves existing ones alone.", "quantifier": "every mix of already stored and new certificates in every order", "why_tests_cant": "the parallel slices are filtered in lock step; which positions survive depends on the mix", "anchors": ["pkg/mapserver/updater/updater.go: UpdateWithKeepExisting, runWhenFalse"]}
{"id": "C24", "title": "Filtering by presence keeps order and pairing", "statement": "The helper that compacts parallel slices by a presence mask keeps exactly the elements whose mask is false, in order, and reports how many there are; elements of all slices at one index stay together.", "quantifier": "every mask length and content", "why_tests_cant": "loop with in-place moves; every pattern matters", "anchors": ["pkg/mapserver/updater/updater.go: runWhenFalse"]}
{"id": "C25", "title": "Pruning removes exactly the expired certificates", "statement": "PruneCerts(now) removes a certificate if and only if it or one of its ancestors has expired, marks dirty every domain associated with a removed certificate before dropping the association, and leaves the rest alone.", "quantifier": "every certificate forest, expiration assignment and time", "why_tests_cant": "recursive closure; ordering of the dirty marking against the deletion", "anchors": ["tools/create_schema.sh: prune_expired", "pkg/db/mysql/certs.go: PruneCerts", "pkg/mapserver/updater/updater.go: PruneCerts"]}
{"id": "C26", "title": "The journal records exactly the completed files", "statement": "After any sequence of progress commits, an index is covered by the journal's completed intervals if and only if it lies in one of the committed files' index ranges; the intervals stay sorted, disjoint and non-adjacent.", "quantifier": "every sequence of committed file intervals (overlapping, adjacent, nested, out of order) over the whole uint64 range", "why_tests_cant": "interval insertion has many border cases, plus wrap-around at the largest index", "anchors": ["cmd/ingest/journal/journal.go: CommitProgress, appendInterval, canMerge, mergeIntervals, normalizeCompletedIndices"]}
{"id": "C27", "title": "Pending files are exactly the uncovered ones", "statement": "PendingFiles returns, in listing order, exactly the listed files whose whole index range is not covered by the journal.", "quantifier": "every canonical interval list and every file range", "why_tests_cant": "binary search over intervals", "anchors": ["cmd/ingest/journal/journal.go: PendingFiles, containsCompletedInterval"]}
{"id": "C28", "title": "The journal file round-trips", "statement": "Writing the journal's intervals and reading them back gives the same intervals; malformed interval strings are refused.", "quantifier": "every interval list over uint64 and every string", "why_tests_cant": "decimal text of arbitrary numbers", "anchors": ["cmd/ingest/journal/journal.go: Interval.String, encodeCompletedIndices, decodeCompletedIndices, parseIntervalString"]}
{"id": "C29", "title": "Recorded CT log size never over-claims", "statement": "The CT log size recorded after an ingestion is at most the length of the contiguous prefix of entries, starting at index 0, that the journal says were ingested.", "quantifier": "every set of completed intervals", "why_tests_cant": "depends on where the first completed interval starts", "anchors": ["cmd/ingest/run.go: completedCTLogSize", "cmd/ingest/journal/journal.go: CommitCTLogSize"]}
{"id": "C30", "title": "The journal survives a crash during writing", "statement": "If the process dies at any point while the journal is being rewritten, the journal file holds the previous or the new content in full.", "quantifier": "every crash point of the write-sync-rename sequence and every pair of contents", "why_tests_cant": "crash points", "anchors": ["cmd/ingest/journal/journal.go: writeLocked"]}
{"id": "C31", "title": "File batches tile the pending files", "statement": "Ingestion processes every pending file in exactly one batch, in order, each batch of at most the configured number of files, and commits a file as completed only after its batch was ingested.", "quantifier": "every list of pending files, batch size and failing batch", "why_tests_cant": "number of files and failure position unbounded", "anchors": ["cmd/ingest/run.go: ingestFilesInBatches"]}
{"id": "C32", "title": "File listing is complete", "statement": "Listing the CSV files under the ingest directory returns every data file in every bundled subdirectory.", "quantifier": "every directory tree", "why_tests_cant": "tests use one fixed tree", "anchors": ["cmd/ingest/journal/list_files.go: ListCsvFiles"]}
{"id": "C33", "title": "The fast CSV path agrees with the standard parser", "statement": "Whenever the fast row parser accepts a line it returns the same certificate, chain and expiration fields as encoding/csv does; otherwise it falls back.", "quantifier": "every byte string", "why_tests_cant": "arbitrary input lines", "anchors": ["cmd/ingest/fastcsv/fastcsv.go: ParseRowFast, parseRowSlow"]}
{"id": "C34", "title": "A failing input stream fails the pipeline", "statement": "If the streaming function of a pipeline stage ends with an error, the pipeline's Wait returns a non-nil error.", "quantifier": "every sequence of streamed outputs and every error position", "why_tests_cant": "error positions in a stream of any length", "anchors": ["pkg/pipeline/stage.go: processThisStage", "cmd/ingest/csvSplitWorker.go"]}
{"id": "C35", "title": "The local log fetcher finds the maximal contiguous chain", "statement": "Given the set of downloaded files, the fetcher reports as achievable state the end of the longest gap-free chain starting at the current state, independently of map iteration order, and terminates.", "quantifier": "every set of file ranges and every iteration order", "why_tests_cant": "Go map iteration is random; sets are unbounded", "anchors": ["pkg/mapserver/logfetcher/locallogfetcher.go: Initialize, getGzFileChain, GetCurrentState"]}
{"id": "C36", "title": "The HTTP log fetcher returns exactly the requested entries", "statement": "Fetching [start,end] yields the log's entries start..end in order, each exactly once, whatever number of entries the server returns per request (at least one, at most what was asked).", "quantifier": "every range, batch size and sequence of partial responses", "why_tests_cant": "server decides the split", "anchors": ["pkg/mapserver/logfetcher/httplogfetcher.go: fetch, getRawEntriesInBatches, getRawEntries"]}
{"id": "C37", "title": "Shared output channels close once, after all senders", "statement": "When several stages feed the same stages, every shared channel is closed exactly once and only after every sending stage is done, so no send hits a closed channel and every receiver sees the end.", "quantifier": "every number of senders and receivers and every schedule", "why_tests_cant": "schedules", "anchors": ["pkg/pipeline/stage.go: LinkStagesCrissCross"]}
{"id": "C38", "title": "A linear pipeline delivers everything exactly once, in order", "statement": "A chain of stages delivers to the sink exactly the images of the source items in order, every run terminates, and no schedule deadlocks.", "quantifier": "every number of stages, items, and every schedule", "why_tests_cant": "schedules", "anchors": ["pkg/pipeline/stage.go: processThisStage, sendOutputsSequential, LinkStagesAt", "pkg/pipeline/source.go", "pkg/pipeline/sink.go"]}
{"id": "C39", "title": "Errors reach the caller", "statement": "If any stage's processing function returns an error other than the end-of-data marker, Wait returns a non-nil error that contains it, and all stages stop.", "quantifier": "every failing stage, item index, and schedule", "why_tests_cant": "schedules and error positions", "anchors": ["pkg/pipeline/stage.go: processThisStage, breakPipelineAndWait, aggregateNextErrChannels", "pkg/util/errors.go: ErrorsCoalesce"]}
{"id": "C40", "title": "Round-robin input reads everything", "statement": "A stage with several sequential inputs receives every item of every input exactly once, preserving per-input order, whatever inputs end when.", "quantifier": "every number of inputs and their lengths", "why_tests_cant": "removal from the list while iterating", "anchors": ["pkg/pipeline/stage.go: readIncomingSequentially", "pkg/util/slice.go: RemoveElemFromSlice"]}
{"id": "C41", "title": "Stalled work runs alone", "statement": "The function run when the pipeline is stalled executes only while no stalled stage is processing an item, and stages continue afterwards.", "quantifier": "every schedule of stages and stall requests", "why_tests_cant": "schedules", "anchors": ["pkg/pipeline/stall_resume.go: WithStallStages"]}
{"id": "C42", "title": "The ordered lock serializes workers in order", "statement": "At most one worker is in its critical section, and workers enter strictly in the order of their ids, round after round.", "quantifier": "every number of workers and schedule", "why_tests_cant": "schedules", "anchors": ["pkg/sync/spin.go: SpinLock"]}
{"id": "C43", "title": "The presence cache never forgets or invents", "statement": "Contains(id) is true if and only if id was added before, also under concurrent use.", "quantifier": "every sequence of operations on every shard", "why_tests_cant": "histories unbounded", "anchors": ["pkg/cache/presence_cache.go: PresenceCache"]}
{"id": "C44", "title": "Work is sharded within range and consistently", "statement": "For every configured number of workers, the worker index computed for an item is a valid index, and equal ids always go to the same worker.", "quantifier": "every id and every number of workers", "why_tests_cant": "all numbers of workers, not only powers of two", "anchors": ["pkg/mapserver/updater/manager.go: createCertificateSource, createPipeline", "pkg/mapserver/updater/certsWorker.go: newDomainExtractor", "pkg/db/mysql/mysql.go: PartitionByIdMSB, NumBitsForPartitionCount"]}
{"id": "C45", "title": "Batching loses nothing", "statement": "The batching stages forward every received item exactly once and in order, in batches of at most the configured size, including the last incomplete one.", "quantifier": "every input length and batch size", "why_tests_cant": "lengths", "anchors": ["pkg/mapserver/updater/certsWorker.go: newCertBatcher", "pkg/mapserver/updater/domainWorker.go: newDomainBatcher"]}
{"id": "C46", "title": "Deduplication keeps every association", "statement": "After the domain workers, the set of stored (domain, certificate) associations equals the set received.", "quantifier": "every stream of associations and every cache content", "why_tests_cant": "eviction and repetition patterns unbounded", "anchors": ["pkg/mapserver/updater/certsWorker.go: newDomainExtractor", "pkg/mapserver/updater/domainWorker.go: newDomainBatcher", "pkg/cache/lru_cache.go: LruCache"]}
{"id": "C47", "title": "Ring-cached buffers are not overwritten while in use", "statement": "An element obtained from the ring cache is not handed out again until at least N-1 further rotations.", "quantifier": "every ring size and rotation count", "why_tests_cant": "modular arithmetic", "anchors": ["pkg/util/noallocs/ringcache.go: RingCache"]}
{"id": "C48", "title": "Policy domain validity follows the allow and deny lists", "statement": "CheckDomainValidity(policyDomain, domain) is not-applicable unless domain is a strict subdomain of policyDomain (trailing dots ignored); otherwise it is decided by the one label directly left of policyDomain: an exact entry for that label wins over a wildcard entry, and without any match the subdomain is allowed. For attributes accepted by validation at most one list can match.", "quantifier": "every attribute set and every pair of domain strings", "why_tests_cant": "unbounded strings and lists", "anchors": ["pkg/common/policies.go: CheckDomainValidity, ValidateAttributes"]}
{"id": "C49", "title": "Attribute validation refuses contradictory lists", "statement": "ValidateAttributes accepts exactly the attributes in which no CA is listed twice and no label occurs twice within or across the allowed, disallowed and excluded lists.", "quantifier": "every attribute list", "why_tests_cant": "unbounded lists", "anchors": ["pkg/common/policies.go: ValidateAttributes"]}
{"id": "C50", "title": "Equality of policy objects is an equivalence that respects content", "statement": "Equal on policy certificates is reflexive, symmetric, transitive, and true for two objects exactly when all their fields hold the same values; in particular a decoded copy equals the original.", "quantifier": "every pair of policy objects", "why_tests_cant": "value-level equality on times, nested lists", "anchors": ["pkg/common/policies.go: Equal", "pkg/common/embedded_policies.go: Equal"]}
{"id": "C51", "title": "Owner signature verification does not depend on later stages", "statement": "An owner signature made on a request verifies on the certificate issued from that request and stays verifiable after issuers and logs add signatures and timestamps; signing and verification change no other field, and a failed attempt changes nothing.", "quantifier": "every request and every later addition", "why_tests_cant": "every combination of added fields", "anchors": ["pkg/common/crypto/crypto.go: SignAsOwner, VerifyOwnerSignature, VerifyOwnerSignatureInPolicyCertificate, SignRequestAsIssuer, SignPolicyCertificateAsIssuer, ComputeHashAsSigner"]}
{"id": "C52", "title": "Issuer constraints are enforced", "statement": "VerifyIssuerConstraints accepts a child policy certificate only if its validity period lies within the issuer's and its domain is the issuer's domain or a subdomain of it (an issuer without a domain may issue for any domain).", "quantifier": "every issuer/child pair", "why_tests_cant": "string and time relations over all values", "anchors": ["pkg/common/crypto/crypto.go: VerifyIssuerConstraints"]}
{"id": "C53", "title": "PCA skips the cool-off period only for the owner's own renewals", "statement": "The PCA skips the cool-off period exactly when the request is signed by a certificate it issued earlier for the same owner, and a certificate it stored can be found again by the hash used in requests.", "quantifier": "every sequence of requests", "why_tests_cant": "histories", "anchors": ["pkg/pca/pca.go: canSkipCoolOffPeriod, storeInDb, SignAndLogRequest"]}
{"id": "C54", "title": "ID sets hash independently of order", "statement": "Gluing (and hashing) a set of ids does not depend on the order in which the ids are listed, does not change the caller's list, and splitting the glued bytes gives back the ids in increasing order; splitting and gluing are inverse.", "quantifier": "every list of ids", "why_tests_cant": "permutations", "anchors": ["pkg/common/ids.go: SortIDsAndGlue, SortIDsAndHash, BytesToIDs, IDsToBytes"]}
{"id": "C55", "title": "Unfolding chains yields each certificate once with its parent", "statement": "Unfolding leaf certificates and chains yields every certificate of every chain, each once, with the id of its issuer in the chain as parent and roots without parent; names only for leaves.", "quantifier": "every list of leaves and chains, with shared ancestors", "why_tests_cant": "shared ancestors in any position", "anchors": ["pkg/util/certificate.go: UnfoldCerts, UnfoldCert"]}
{"id": "C56", "title": "Slice removal helpers remove exactly the given positions", "statement": "RemoveElemFromSlice and RemoveElementsFromSlice leave exactly the elements at the positions not listed (as a multiset; order may change), for every non-empty slice and every duplicate-free in-range index list in any order.", "quantifier": "every slice and index list", "why_tests_cant": "in-place moves for every index pattern", "anchors": ["pkg/util/slice.go: RemoveElemFromSlice, RemoveElementsFromSlice"]}
{"id": "C57", "title": "Durations round-trip through text", "statement": "Parsing the formatted text of a duration returns the same duration; malformed text is refused.", "quantifier": "every int64 duration and every string", "why_tests_cant": "2^63 values", "anchors": ["pkg/util/duration.go: FmtDuration, ParseDuration"]}
{"id": "C58", "title": "The next time of day is in the next 24 hours", "statement": "NextTimeOfDay returns an instant strictly after now and at most 24 hours later, with the requested wall-clock time.", "quantifier": "every now, time zone and time of day", "why_tests_cant": "time zone and midnight borders", "anchors": ["pkg/util/time_wrap.go: NextTimeOfDay"]}
{"id": "C59", "title": "The map server's update loop never wedges", "statement": "Every call to PruneAndUpdate returns, whatever errors the update reports, and later calls are served.", "quantifier": "every sequence of update outcomes", "why_tests_cant": "histories of failures", "anchors": ["pkg/mapserver/mapserver.go: NewMapServer, PruneAndUpdate, PruneAndUpdateIfPossible, pruneAndUpdate"]}
{"id": "C60", "title": "Coalescing errors loses none", "statement": "ErrorsCoalesce returns nil exactly when there is no non-nil error among its arguments (also looking inside already coalesced ones); otherwise the result contains, flat and in order of first appearance, each distinct error message exactly once.", "quantifier": "every list of errors, nested coalesced errors included", "why_tests_cant": "nesting depth and lengths", "anchors": ["pkg/util/errors.go: ErrorsCoalesce, CoalescedErrors"]}
{"id": "C61", "title": "Deduplication helpers keep one of each", "statement": "DeduplicateSlice leaves every distinct element exactly once (order may change), and applies the very same selection to every accompanying slice, so that elements at one index stay together.", "quantifier": "every slice with repetitions anywhere", "why_tests_cant": "in-place moves over all repetition patterns", "anchors": ["pkg/util/deduplicateSlice.go: DeduplicateSlice"]}
{"id": "C62", "title": "Sorting returns a sorted permutation", "statement": "Qsort returns a sorted permutation of its input and terminates for every input, also with equal elements.", "quantifier": "every slice", "why_tests_cant": "unbounded inputs", "anchors": ["pkg/util/sort.go: Qsort"]}
{"id": "C63", "title": "Journal phase flags are truthful", "statement": "Whenever the journal says that ingestion, coalescing or the tree update of a job is complete, that phase has really run to its end for that job's files.", "quantifier": "every sequence of runs with every combination of run options, errors and kills between phases", "why_tests_cant": "combinations of options, failures and restarts are unbounded", "anchors": ["cmd/ingest/journal: Journal", "cmd/ingest/run.go"]}
{"id": "C64", "title": "After an update every response verifies at the client", "statement": "After UpdateSMT returned without error, the response built for any domain name verifies at the client: as present with exactly the hash of the certificate and policy ids the database holds for it, or as absent if it holds none.", "quantifier": "every database content, tree content, bundle size and domain name", "why_tests_cant": "ranges over all database contents and the composition of updater, trie, responder and client", "anchors": ["pkg/mapserver/updater/updater.go: UpdateSMT", "pkg/mapserver/responder/responder.go: GetProof", "pkg/mapserver/prover/prover.go: VerifyProofByDomain"]}
{"id": "C65", "title": "An ingested certificate is found by asking for its names", "statement": "A certificate ingested with a valid domain name among its names (common name or DNS names) is covered by the answer GetProof gives for that very name.", "quantifier": "every public suffix list, tree content and valid name, with any number of labels", "why_tests_cant": "two different pieces of code (ingestion and responder) turn a name into a tree key; they must agree on all names", "anchors": ["pkg/util/domain.go: ExtractCertDomains", "pkg/mapserver/updater/updater.go: insertCerts", "pkg/mapserver/responder/responder.go: GetProof", "pkg/domain/domain.go: ParseDomainName, removeWildCardAndWWW"]}
{"id": "C66", "title": "The recorded size of a log is truthful", "statement": "Whenever the database records that a CT log was ingested up to size n, the certificates of all entries of the log below n have been inserted.", "quantifier": "every log, batch size, sequence of update rounds, and interleaving of the background download with the updater, with errors, cancellations and restarts anywhere", "why_tests_cant": "interleavings of goroutines with failures and restarts are unbounded", "anchors": ["pkg/mapserver/updater/updater.go: UpdateNextBatch, NextBatch, startNextFetcher", "pkg/mapserver/logfetcher/httplogfetcher.go: StartFetching, StopFetching, fetch, NextBatch", "pkg/mapserver/mapserver.go: updateCerts"]}
{"id": "C67", "title": "Reading line by line gives the records of the file", "statement": "If the reader of the ingest command reads a CSV file to its end without an error, the rows it hands on are exactly the records that encoding/csv finds in the file, in order, with their certificate, chain and expiration columns; if it reports an error, the rows before the first bad line were handed on.", "quantifier": "every file content", "why_tests_cant": "arbitrary file contents: quoting, carriage returns, missing last newline", "anchors": ["cmd/ingest/csvSplitWorker.go: startReadingLines", "cmd/ingest/fastcsv/fastcsv.go: ParseLine"]}
{"id": "C68", "title": "Every certificate of an unexpired row reaches the database stage", "statement": "For every row whose expiration and certificate are not in the past, the leaf is sent to the database stage with its names and its parent's id, and every certificate of its chain is sent at least once with its parent's id; nothing else is sent.", "quantifier": "every list of rows, distribution of the rows to the workers, cache size and contents of the cache", "why_tests_cant": "the cache makes the output for a row depend on all rows before it", "anchors": ["cmd/ingest/toChainWorker.go: parseLine", "cmd/ingest/chainToCertWorker.go", "pkg/util/certificate.go: UnfoldCert"]}
{"id": "C69", "title": "Rounds end to end: the accepted answer speaks about exactly the certificates of the name", "statement": "After any sequence of prunings, ingestions, coalescings and tree updates, for every name that is not marked dirty the client accepts the server's answer, and the answer is a proof of presence of the hash of exactly the sorted ids of the certificates associated with the name, of their stored ancestors and of its policies, or a proof of absence if there are none. At the end of a round this holds for every name.", "quantifier": "every sequence of steps and batches, every interleaving and interruption of the coalescing, every interruption of the pruning, every name", "why_tests_cant": "the answer depends on the whole history of the tables and of the tree, and a stale payload of a domain that is not dirty only shows after a particular order of ingestion and pruning", "anchors": ["pkg/mapserver/mapserver.go: pruneAndUpdate, update", "pkg/mapserver/updater/updater.go: updateCertBatch, UpdateWithKeepExisting, CoalescePayloadsForDirtyDomains, UpdateSMT", "pkg/db/mysql/dirty.go: CleanupDirty", "tools/create_schema.sh: calc_dirty_domains, prune_expired", "pkg/mapserver/responder/responder.go: GetProof"]}
{"id": "C70", "title": "The estimate of rows agrees with the journal about file names", "statement": "For every listed data file the estimate reads the same first and last index as the journal and counts exactly last-first+1 rows, and the counting before the batches never changes which files a run ingests.", "quantifier": "every path and file name with extension .gz or .csv, every directory tree, every journal, every listing and run", "why_tests_cant": "two parsers with different regular expressions and number types must agree on every digit string; the names at which they part (indices from 2^63 on, an unescaped dot) are outside any test data", "anchors": ["pkg/util/csv_files.go: EstimateCertCount, filenameToIndices, gzCsvFilename", "cmd/ingest/run.go: ingestFilesInBatches", "cmd/ingest/journal/journal.go: parseFileInterval, parseIntervalString, PendingFiles", "cmd/ingest/journal/list_files.go: ListCsvFiles"]}
{"id": "C71", "title": "The CSV files loaded into the database give exactly the rows written", "statement": "The rows of certificates, dirty domains, domains and associations that the server writes to CSV files are the rows that LOAD DATA stores, for both writers; so an insertion through the four files changes the tables exactly as the statements with the rows themselves. No name of a certificate can add, drop or alter rows of other domains.", "quantifier": "every list of rows, every id, payload, date and name, every state of the tables", "why_tests_cant": "the tests load a few well-formed names; a comma, quote, backslash, line break or the word NULL inside a name or at the end of base64 text must be tried in every position, and an injected row damages another domain than the one tested", "anchors": ["pkg/mapserver/updater/csv.go: writeCSV, writeCertCSV, recordsForCert, recordsForDomains, recordsForDirty, recordsForDomainCerts", "pkg/db/mysql/mysql.go: writeToCSV, updateDomainsCSV, loadDomainsTableWithCSV", "pkg/db/mysql/certs.go: updateCertsCSV, loadCertsTableWithCSV, loadDomainCertsTableWithCSV", "pkg/db/mysql/dirty.go: insertDomainsIntoDirtyCSV, loadDirtyTableWithCSV", "pkg/util/domain.go: ExtractCertDomains"]}
{"id": "C72", "title": "Policy objects survive their JSON text", "statement": "FromJSON of the text that ToJSON gives for a policy object is the same object, keeps the text as Raw, and has the same text again; two objects with one text are the same, so a signature over the text is one over the object and still verifies after the object was written and read. Any text is read as an object, which keeps this text, or is refused with an error; it never panics.", "quantifier": "every policy object (the seven structures, slices and pointers nested to any depth), every string, time, location and byte slice in it, every byte string as input of the reader", "why_tests_cant": "the tests write and read a few generated objects with short ASCII names and UTC times; strings that are not UTF-8, offsets with seconds, duplicated or differently cased members, space, and the fixpoint of reading and writing for every text need the encoder and decoder themselves", "anchors": ["pkg/common/json.go: ToJSON, FromJSON, marshalJSON, UnmarshalJSON, unmarshalTypeObject, JsonFileToPolicyCert", "pkg/common/policy_common.go: Raw", "pkg/common/policies.go: structures and their tags", "pkg/common/crypto/crypto.go: signStructRSASHA256, VerifyOwnerSignatureInPolicyCertificate, VerifyIssuerSignature"]}
{"id": "C73", "title": "The joined halves of the ingestion deliver every certificate to both stages and end", "statement": "The link between the file half and the database half of the ingestion hands every certificate exactly once to each of the two stages chosen for it, closes the channels once and only after all producing stages, ends under every fair schedule, and tells every producing stage about an error of the database half.", "quantifier": "every number of producing stages and channels, every routing, all certificates, all errors and every schedule", "why_tests_cant": "schedules and the moment of an error", "anchors": ["cmd/ingest/processor.go: getNewLinkFunction", "pkg/util/channels.go: SendToAllChannels", "pkg/pipeline/stage.go: breakPipelineAndWait"]}
{"id": "C74", "title": "The workers of the policy log client handle every leaf once and end", "statement": "AddLeaves and FetchInclusions make exactly one call for every leaf, report exactly the leaves that failed and the proofs of the others, never panic, and return with all workers gone.", "quantifier": "every number of workers, all leaves, all answers of the log, every schedule", "why_tests_cant": "schedules and answers of the log", "anchors": ["pkg/policylog/client/concurrentfunc.go: AddLeaves, FetchInclusions, worker_addLeaf, worker_fetchInclusion"]}
{"id": "C75", "title": "QueueRPCs adds every RPC file to the log and reports the rest", "statement": "QueueRPCs adds the contents of every file to the log, removes only files it has dealt with, reports every leaf that was not added or retrieved, and returns.", "quantifier": "all files, all answers of the log", "why_tests_cant": "unreadable files and other writers to the log", "anchors": ["pkg/policylog/client/logclient.go: QueueRPCs, readRPCFromFileToBytes"]}
{"id": "C76", "title": "The log verifier accepts exactly the inclusion proofs of RFC 6962", "statement": "VerifyInclusionByHash accepts the RFC 6962 audit path of every leaf of a log against the root of the log, and when it accepts a leaf against the root of a log, the leaf is in the log (or two strings that were hashed collide).", "quantifier": "all logs of all sizes, all indices, all leaf hashes, all lists of proofs, all hash functions of 32 bytes", "why_tests_cant": "tests use one proof taken from one running log; the way the proof is split depends on all bits of the index and the size", "anchors": ["pkg/logverifier/verifier.go: VerifyInclusionByHash", "transparency-dev/merkle v0.0.2 proof/verify.go: VerifyInclusion"]}
{"id": "C77", "title": "VerifyRoot accepts only roots of a log that was only appended to", "statement": "VerifyRoot accepts the RFC 6962 consistency proof between every non-empty prefix of a log and the log; when it accepts an old root against the root of a log, the old root is the root of the first leaves of the log (or two strings that were hashed collide).", "quantifier": "all logs, all sizes, all old roots, all lists of byte strings as proof", "why_tests_cant": "malformed proofs, sizes that are not powers of two", "anchors": ["pkg/logverifier/verifier.go: VerifyRoot", "transparency-dev/merkle v0.0.2 proof/verify.go: VerifyConsistency"]}
{"id": "C78", "title": "A leaf verified with an older root is in the newer log", "statement": "VerifyInclusionWithPrevLogRoot accepts right proofs; when it accepts a leaf hash with an older root against the root of a log, the leaf is one of the first leaves of that log (or two strings that were hashed collide).", "quantifier": "all logs, older roots, consistency proofs, leaf hashes, lists of inclusion proofs", "why_tests_cant": "a proof with nodes of other sizes is needed to break it", "anchors": ["pkg/logverifier/verifier.go: VerifyInclusionWithPrevLogRoot"]}
{"id": "C79", "title": "One right inclusion proof among several is enough", "statement": "As the comment in VerifyInclusionByHash says, as long as one of the proofs is right the verification succeeds.", "quantifier": "all logs, leaves, lists of proofs", "why_tests_cant": "tests give one proof", "anchors": ["pkg/logverifier/verifier.go: VerifyInclusionByHash", "transparency-dev/merkle v0.0.2 proof/verify.go: VerifyInclusion"]}
{"id": "C80", "title": "The payload interface answers each id with its payload or null, in order", "statement": "A request to /getpayloads, /getcertpayloads or /getpolicypayloads whose ids parameter is a sequence of 32-byte ids in hexadecimal is answered with a JSON list that has for each id, in the order of the request, the payload stored under it, or null if and only if none is stored; all other parameters are refused.", "quantifier": "all tables, all parameter texts, all orders in which the database returns the rows, all three interfaces", "why_tests_cant": "tests ask for a few stored ids; absent ids, repeated ids, upper case, partial ids, the order of rows and broken connections are not tried", "anchors": ["pkg/mapserver/mapserver.go: apiGetPayloads", "pkg/db/mysql/certs.go: RetrieveCertificatePayloads", "pkg/db/mysql/policies.go: RetrievePolicyPayloads", "pkg/db/mysql/common.go: RetrieveCertificateOrPolicyPayloads"]}
{"id": "C81", "title": "From a domain name to verified payloads, end to end", "statement": "After any history of ingestions, prunings, coalescings and tree updates (also killed in between), the text answered to a request for a valid domain reads as one answer for each of its parent names; the client accepts each; the ids listed are exactly those of the certificates and policies the tables hold for the name, and a second request for these ids yields payloads that hash to them.", "quantifier": "all histories of the map server, all domains, all public suffix lists of whole labels, all orders of ids and rows", "why_tests_cant": "tests fetch one proof after one ingestion; states between the steps of a round and answers changed on the way are not tried", "anchors": ["pkg/mapserver/mapserver.go: apiGetProof, apiGetPayloads", "pkg/mapserver/responder/responder.go: GetProof", "pkg/mapserver/prover/prover.go: VerifyProofByDomain", "pkg/db/mysql/*.go: payload queries"]}
{"id": "C82", "title": "Proofs survive their JSON text", "statement": "What a client reads out of the JSON text of a list of map server responses is the list the server wrote, so the client accepts the text exactly if it accepts what the server computed.", "quantifier": "all lists of responses with UTF-8 names", "why_tests_cant": "the text depends on every byte of the arrays and slices, on nil versus empty, and on the names", "anchors": ["pkg/mapserver/mapserver.go: apiGetProof", "pkg/mapserver/common/structure.go: MapServerResponse, PoI, DomainEntry"]}
{"id": "C83", "title": "PEM files are read as the certificates and keys they hold", "statement": "The certificate reader yields the certificates of the CERTIFICATE blocks of a text, each once and in order, whatever the sizes of the pieces in which the text arrives, the size of the storage and the sizes of the requests; a text that does not hold complete, parsable certificates is refused. What SerializeCertificates and RSAKeyToPEM write is read back as it was.", "quantifier": "all texts, all readers (any pieces, empty reads, EOF with or after the last bytes, failures), all sizes of the storage, all sequences of requests", "why_tests_cant": "tests read a few complete files from memory; pieces that end within a block, storages that have to grow, cut or malformed files and failing readers are not tried", "anchors": ["pkg/util/certReader.go: CertReader.Read, ReadAll", "pkg/util/certWriter.go: CertWriter.Write", "pkg/util/certificate.go: SerializeCertificates, DeserializeCertificates", "pkg/util/io.go: CertificateFromPEMFile, CertificateFromPEMBytes, RSAKeyFromPEM, RSAKeyToPEM"]}
{"id": "C84", "title": "Local files are delivered completely and once", "statement": "An update from local files hands every certificate of the requested files with its chain to the updater exactly once and counts the expired rows, in batches of the configured size; it ends, whatever the schedule of the file readers, parsers and the collector; the size of the log is recorded exactly if all rows up to the target were delivered; what is not a row of a certificate costs only that row.", "quantifier": "all numbers of readers, parsers, batch sizes and buffers; all files, rows and names; all schedules of the goroutines", "why_tests_cant": "the tests read one small folder with one schedule; the channels, the eight readers with 64 parsers each and the collector allow an unbounded number of interleavings, and no test has a malformed row or a file whose name does not fit", "anchors": ["pkg/mapserver/logfetcher/locallogfetcher.go: Initialize, StartFetching, NextBatch, processFile, ingestWithCSV, getExpiration, processIncomingFiles, getFileInfo, listFiles", "pkg/mapserver/updater/updater.go: UpdateNextBatch"]}
{"id": "C85", "title": "Updates run at the configured times", "statement": "RunWhen calls the function at the given time, or at once if it is past, and then once per interval, on a grid that does not depend on how long the calls take; calls never overlap, missed ticks are not made up for; after a cancellation of the context no call begins; with the time of day and the interval of the configuration the map server updates once a day at that time.", "quantifier": "all start times, intervals, durations of the calls, delays and schedules, cancellations at any moment", "why_tests_cant": "the test has three cases with real clocks and calls that take no time; a tick and a cancellation at the same moment, long calls and delays of the scheduler depend on timing", "anchors": ["pkg/util/ticker.go: RunWhen", "cmd/mapserver/main.go: runWithConfig", "pkg/util/time_wrap.go: NextTimeOfDay"]}
{"id": "C86", "title": "Times of day survive being written and read", "statement": "A text is accepted as a time of day exactly if it has the form hours:minutes:seconds with an optional fraction, within their ranges, and it stands for that time; every time of day is written in such a form with the fewest groups of three decimals that keep it, and is read back as the same time; NewTimeOfDay never leaves the day.", "quantifier": "all texts; all times of day at the resolution of a nanosecond; all four unsigned arguments", "why_tests_cant": "the tests have a handful of times; a day has 8.64e13 nanoseconds and the set of texts is infinite", "anchors": ["pkg/util/time_wrap.go: String, Set, NewTimeOfDay", "pkg/util/time.go: ParseTimeOfDay"]}
{"id": "C87", "title": "Configuration files survive writing and reading", "statement": "A map server or PCA configuration that is written to a file is read back as an equal configuration; what was written can always be read; members missing in the file have the zero value and members with unknown names change nothing.", "quantifier": "all configurations: any urls, folders, database values, paths, names, ports, row counts, times and intervals, any order of the maps; all JSON texts", "why_tests_cant": "the tests write one configuration each; escaping, map order, invalid UTF-8, nil and empty values and the merge into a configuration in use have many combinations", "anchors": ["pkg/mapserver/config/config.go: ReadConfigFromFile, WriteConfigurationToFile", "pkg/db/conf.go: Configuration", "pkg/pca/config.go: ReadConfigFromFile, SaveConfigToFile"]}
{"id": "C88", "title": "The database connection is the configured one", "statement": "For a configuration without a DSN, Connect asks the driver for exactly the configured user, password, server and port (or local socket) and database, with every other value as a parameter; connecting again with the same configuration asks for the same, and the order of the map does not matter.", "quantifier": "all configurations: any values for the user, password, host, port, socket, database and the parameters, any environment", "why_tests_cant": "the tests use one local server with the user root and no port; users, passwords, hosts and parameters with special characters pass through three parsers (DSN, URL, driver)", "anchors": ["pkg/db/mysql/init.go: Connect, parseDSN, connect", "pkg/db/mysql/conf.go: WithDefaults, WithEnvironment, WithUser, WithLocalSocket", "pkg/db/conf.go: NewConfig, WithDB"]}
{"id": "C89", "title": "Policy certificates issued by a PCA are right, logged and renewable", "statement": "A certificate that SignAndLogRequest returns has the values of the request, lies within the constraints of the PCA's certificate, carries its signature and one checkable timestamp of each configured log server, and is registered in all of them; it is registered in a log only if it is returned. Its serial number is unique. The domain owner can renew it with a request signed with it.", "quantifier": "all PCA configurations and histories, requests, orders of the iteration over the log servers, answers and failures of the servers, keys and clocks", "why_tests_cant": "the test has one request, log servers that always answer, does not check the timestamps (a TODO), and never renews; the orders of a map iteration and failing servers are not enumerable", "anchors": ["pkg/pca/pca.go: NewPCA, NewPolicyCertificateSigningRequest, SignAndLogRequest, sendRequestToAllLogServers, sendFinalPolCertToAllLogServers", "pkg/domainowner/domainowner.go: GeneratePolCertSignRequest", "pkg/common/crypto/crypto.go: SignPolicyCertificateTimestamp, SignRequestAsIssuer, SignPolicyCertificateAsIssuer"]}
{"id": "C90", "title": "A policy certificate inserted with the command is served", "statement": "After 'mapserver insertPolicy FILE' succeeds, the policy certificate of the file is stored under the hash of its text, is listed by an accepted answer for its domain, and nothing else has changed; a second run changes nothing; a run that died at any point is completed by the next one; every inserted policy can be asked for.", "quantifier": "all files, all states of the tables and the tree that the server reaches, all interleavings of the coalescing workers, all points at which the process dies", "why_tests_cant": "no test runs the command; the texts of a file, the states and the interleavings are not enumerable, and a crash between two statements cannot be placed by a test", "anchors": ["cmd/mapserver/main.go: insertPolicyFromFile", "pkg/util/io.go: PolicyCertificateFromFile, PolicyCertificateFromBytes", "pkg/mapserver/updater/updater.go: UpdateWithKeepExisting, insertPolicies", "pkg/common/policy_common.go: Raw"]}
{"id": "C91", "title": "The stages of an ingestion are linked as drawn, and all of them end", "statement": "For every number of file readers, parsers, dechainers and database writers, resuming the joined pipeline links every output of every stage to the inputs the picture shows and to no others, brings every error back along the same edges, leaves no nil channel, closes no channel twice; nothing ends before the source does, and when the source ends, every stage, every goroutine and Wait end.", "quantifier": "all numbers of file readers, parsers, dechainers and database writers; all stages, outputs and inputs", "why_tests_cant": "tests run one or two sizes; the wiring is made by loops over indices, and a wrong index, a leaked goroutine or a channel closed twice shows only for some sizes or only under load", "anchors": ["cmd/ingest/processor.go: NewProcessor, createFilesToCertsPipeline, getNewLinkFunction", "pkg/mapserver/updater/manager.go: createPipeline", "pkg/pipeline/join.go: JoinPipelinesRaw", "pkg/pipeline/stage.go: LinkStagesAt, LinkStagesFanOut, LinkStagesCrissCross, prepareStage", "pkg/pipeline/source.go: Prepare", "pkg/pipeline/sink.go: PrepareSink"]}
{"id": "C92", "title": "The mesh of domain extractors and domain batchers delivers every domain once, and ends", "statement": "Between the N domain extractors and the N domain batchers, whatever the scheduling, every domain arrives exactly once and only at the batcher it was extracted for, no error is invented, and after all certificates have been read, or after a batcher has failed, all extractors and batchers end and the error is reported.", "quantifier": "all numbers of workers, all certificates and their domains, all failures, all schedules of all goroutines", "why_tests_cant": "the number of interleavings of N*N goroutines that carry domains and N*N that carry errors is unbounded; the hang needs an error of the database while a second extractor has several more domains for the same worker", "anchors": ["pkg/mapserver/updater/manager.go: createPipeline (275-282)", "pkg/pipeline/stage.go: processThisStage, sendOutputsConcurrent, breakPipelineAndWait, aggregateNextErrChannels, readIncomingConcurrently, LinkStagesAt"]}
{"id": "C93", "title": "The text of the journal file is read back as written", "statement": "The indented JSON text of a journal is a JSON text that does not depend on the order in which maps are visited. Reading it gives the same jobs. A file that is cut off anywhere is refused. Whatever text is accepted, the keys of the completed indices are distinct, non-empty and UTF-8, and the intervals are sorted and apart.", "quantifier": "all journals (all jobs, all strings, all numbers, all maps of intervals), all cuts, all bytes of a file", "why_tests_cant": "the texts are unbounded in size; the loss needs a directory name that is not UTF-8, and a cut can be at every byte of every text", "anchors": ["cmd/ingest/journal/journal.go: Journal, Job, JobConfiguration (22-69), write (321), normalize (384), read (396), MarshalJSON (462), UnmarshalJSON (468), encodeCompletedIndices (487), decodeCompletedIndices (499), normalizeCompletedIndices (519)", "encoding/json: MarshalIndent, Unmarshal"]}
{"id": "C94", "title": "Interrupting the ingest command leaves a correct journal and ends it", "statement": "Whatever signals arrive and however the main goroutine and the signal handler interleave: at every moment, and so wherever the process ends, the journal file can be read, covers all files whose commit succeeded, and covers nothing but what it covered before and files of batches for which all external calls succeeded. After a successful Close nobody changes it. Exit code 0 means all files are covered. A first termination signal cancels and no further batch begins; a second one ends the process with its code, after a write in progress.", "quantifier": "all interleavings of the main goroutine and the handler, all signals at all moments, all outcomes of external calls and of writes, all listings, batch sizes and earlier journals", "why_tests_cant": "a signal can arrive between any two steps of two goroutines; the losses of signals need a full channel at the moment of arrival", "anchors": ["cmd/ingest/main.go: main, mainFunction (59-216), startIngestSignalHandler (284), signalExitCode (348)", "cmd/ingest/run.go: runIngest (66), ingestFilesInBatches (185)", "cmd/ingest/journal/journal.go: CommitProgress (143), PendingFiles (190), Close (306), registerShutdownHook (375)", "pkg/util/atexit.go: ShutdownFunction, Exit, RegisterShutdownFunc"]}
{"id": "C95", "title": "Temporary files: the database loads exactly the files of the batches, and none is left", "statement": "Any number of lines of stages (create, insert, remove) work in one folder, where others create files too. Names are pointers into rings of reused buffers. In every run, whatever calls fail and whatever names are drawn: no step panics; what the database has loaded for a line is a prefix of the complete files of its batches in order; files of others keep their contents; inserting and removing fail only if a call fails. A line makes a bounded number of steps, and it finishes or a stage of it fails. When all have finished, everything is loaded, no descriptor is open and only files of others are left. A failed stage leaves no file and no descriptor behind.", "quantifier": "all numbers of lines, batches, prefixes, buffers of sufficient size, at least three of them per ring, all interleavings of single system calls, all failures and draws, all files of others", "why_tests_cant": "the buffers are reused while other stages still read the names in them; the tests use one line and few batches, and no failing calls", "anchors": ["pkg/util/noallocs/tempfile.go: CreateTempFile (17), randomFilenameChars (60)", "pkg/util/noallocs/string.go: StringToBytePtr (5)", "pkg/util/noallocs/file.go: Open (10), Write (23)", "pkg/util/noallocs/ringcache.go: Rotate (29)", "pkg/mapserver/updater/csv.go: writeCSV (121), writeCertCSV (164)", "pkg/mapserver/updater/certsWorker.go: newCertBatchToCsv, newCertCsvInserter, newCertCsvRemover (135-210)", "pkg/mapserver/updater/domainWorker.go: newDomainsToCsvs, newDomainCsvsInserter, newDomainCsvsRemover (83-206)"]}
{"id": "C96", "title": "A termination signal stops the map server in good order", "statement": "In every interleaving of the goroutines of the map server command, the clients and the signals: without a signal the process ends only if a call fails, with code 1. With updateNow it answers requests only after an update without an error. After a SIGINT or SIGTERM it ends, whatever the calls do; the panic of the watchdog comes only when the waiting time has passed since a signal; a further signal, once the first was handled, ends it at once. After a signal, if no call fails, it ends with code 0 and without a panic, it answers no further requests, and an update that has begun is finished.", "quantifier": "all interleavings of the six goroutines, all outcomes of their calls, all times and numbers of signals, any waiting time; for the end: all schedules in which the two goroutines of the signals get their turns and time goes on", "why_tests_cant": "no test sends a signal to the map server or starts the command; races between cancelling and sending on a channel that is closed show up only by chance", "anchors": ["cmd/mapserver/main.go: run (155), runWithConfig (173), manageError", "pkg/util/signal_handler.go: ContextWithCancelOnSignal (35)", "pkg/util/ticker.go: RunWhen (20)", "pkg/mapserver/mapserver.go: NewMapServer (123-140), listen (170-195), PruneAndUpdateIfPossible (205), PruneAndUpdate (222)"]}
{"id": "C97", "title": "The map server goes on where the ingest command ended", "statement": "The directory of a log is named like its URL with underscores for slashes. The URL derived from the directory, in whatever folder and however its path is written, is the URL of the log, so that after recordctsize the map server with this URL in its configuration goes on with exactly the recorded size, whatever is recorded for other logs; without a record it begins with 0. Different directories record for different URLs, and a record never lowers the size.", "quantifier": "all folders, ways to write a path, URLs, sequences of records of both programs, hash functions without a collision of the URLs in question", "why_tests_cant": "the tests use two names of directories and a mock of the table", "anchors": ["cmd/ingest/run.go: RunIngest (99-119), deriveCTLogURLFromIngestDir (274)", "cmd/ingest/main.go: RecordCTSize (205)", "pkg/db/mysql/certs.go: LastCTlogServerState (288), UpdateLastCTlogServerState (302)", "pkg/mapserver/updater/updater.go: NewMapUpdater (62-80), updateSomeCerts (186), startNextFetcher (255)"]}
{"id": "C98", "title": "The command line decides the configuration", "statement": "The ingest command goes on exactly with command lines made of its flags and then other arguments. Its configuration has the last value of every flag, the usual value of a flag which is not given, and the first other argument as directory; the strategy decides exactly which phases run, unknown strategies are refused, and a phase which needs a directory has one. Every configuration can be given. Numbers mean what they say, all arguments are taken into account, and what is accepted can be worked with. The map server shows its version, writes a sample, inserts a policy or runs, and takes exactly one file.", "quantifier": "all lists of arguments, all ways to write a flag, all configurations, all further flags of imported packages", "why_tests_cant": "no test parses a command line; the tests fill in the configuration themselves", "anchors": ["cmd/ingest/cmdflags/flags.go: _configureFlags (46)", "cmd/ingest/main.go: mainFunction (58-71), configFromFlags (257)", "cmd/ingest/run.go: validate (50)", "cmd/ingest/journal/journal.go: NewJobConfiguration (113)", "cmd/ingest/processor.go: NewProcessor (38), createFilesToCertsPipeline (189-201)", "cmd/mapserver/main.go: mainFunc (31)"]}
{"id": "C99", "title": "The interface over gRPC answers like the one over HTTP", "statement": "Requests and replies over gRPC arrive as they were sent, and the text in a reply reads as the chain of proofs that the responder made. So a client over gRPC gets exactly the answers that a client over HTTP gets, for every domain, at any time and of any size; invalid names are errors; and calling the client has no other effect on the process.", "quantifier": "all names, chains of proofs, hash functions, rules of public suffixes, tables and trees, limits for messages, and arguments of the process", "why_tests_cant": "there is no test of the two packages", "anchors": ["pkg/grpc/grpcserver/grpcserver.go: QueryMapEntries (34), NewGRPCServer (55), StartWork (70)", "pkg/grpc/grpcclient/grpcclient.go: GetProofs (26)", "pkg/grpc/query/query.proto"]}
{"id": "C100", "title": "The statistics of the ingestion are right", "statement": "When all rows were accepted, ReadRows is the number of rows, ExpiredCerts the number of rows that were left out because they have expired, ReadCerts and ReadBytes the number and the size of the payloads that were read, UncachedCerts at least the number of certificates passed on, and WrittenCerts and WrittenBytes are those that were sent to the database. At every moment there are no more uncached certificates than certificates and no more expired rows than rows, and so the percentages in the line that is printed are at most 100.", "quantifier": "all rows, ways to deal them to workers, caches, decoders, parsers of certificates and times; all moments of the workers", "why_tests_cant": "no test looks at the counters of the joined pipeline; the moments depend on the interleaving", "anchors": ["cmd/ingest/toChainWorker.go: parseLine (66)", "cmd/ingest/processor.go: createCertificateSink (273), createFilesToCertsPipeline (193)", "pkg/pipeline/join.go: JoinPipelinesRaw (12)", "cmd/ingest/main.go: printStats (218)", "pkg/statistics/stats.go"]}
{"id": "C101", "title": "The helpers for powers, slices and types do what their comments say", "statement": "Pow gives the power in the arithmetic of the type, and the power itself if it is in the range of the type. ResizeSlice keeps the elements up to the new length, gives the new ones the value, and changes no other slice. The channel numbers that the dechainers return are one 0 per certificate, and stay so. SliceToTypedSlice splits a slice by type and keeps the order; ToTypedSlice accepts exactly the slices of the type. LoadPoliciesFromRaw loads every slice of policy documents that its comment names as it was written, refuses all other texts, and never panics.", "quantifier": "all integer types of at least two bits, numbers and exponents; all memories, slices, lengths and choices of capacities by the runtime; all sequences of chains; all lists, types and texts", "why_tests_cant": "the tests have a few values of each; the fill value is tested only when a new array is made; sharing of arrays and LoadPoliciesFromRaw are not tested", "anchors": ["pkg/util/math.go: Pow (7)", "pkg/util/slice.go: ResizeSlice (49)", "cmd/ingest/chainToCertWorker.go: NewChainToCertWorker (18)", "pkg/util/types.go: ToTypedSlice (16), SliceToTypedSlice (32)", "pkg/util/io.go: LoadPoliciesFromRaw (210)"]}
{"id": "C102", "title": "A whole CSV file is loaded with the same certificates as the ingest command reads from it", "statement": "LoadCertsAndChainsFromCSV accepts a file exactly if every record has a certificate in its fourth column and certificates separated by semicolons in its fifth, and returns what UnfoldCerts returns for these; for files that the ingest command reads to the end these are the columns that it reads; all other files are errors, never a panic; certificates that have expired are left out, as in the ingest command", "quantifier": "all file contents, all parsers of base64 and X.509", "why_tests_cant": "no test or other code calls the function", "anchors": ["pkg/util/io.go: LoadCertsAndChainsFromCSV (158), parseCertFromCSVField (229)", "cmd/ingest: CSV reader (C33, C67)"]}
{"id": "C103", "title": "A public key survives its encoding, and an encoding has one key", "statement": "DERBytesToRSAPublic after RSAPublicToDERBytes, and DERBase64ToRSAPublic after RSAPublicToDERBase64 (also with line breaks in the text), give back every public key of RSA with a positive modulus and exponent; different keys have different texts; texts that are accepted have exactly the form of a key, with positive numbers and nothing after it; keys whose numbers are not positive are refused; a text that is accepted is the text that is written for its key", "quantifier": "all moduli and exponents whose text is shorter than 2^31 bytes; all byte strings for what is accepted", "why_tests_cant": "the test makes one key and encodes it once", "anchors": ["pkg/util/pem.go: RSAPublicToDERBase64 (11), DERBase64ToRSAPublic (19), RSAPublicToDERBytes (27), DERBytesToRSAPublic (31)", "pkg/common/crypto/crypto.go: keys of policy certificates (129, 282)"]}

# Formal model of linkspace in Rocq: design

Source: `/repo` (Rust workspace, pinned commit). Model and proofs: `rocq/theories/`,
logical name `Verif`, Coq 8.16.1.

## Conventions

* A byte is an `N` below 256 and a byte string is a `list N`. Where it matters,
  `bytes_ok l` says that every element is below 256. Integers are `N` (or `Z`),
  with wrap-around written out (`mod 2^64`) wherever the code can wrap.
* `Result`/`Option` stay data. A Rust panic or out-of-bounds access is an
  explicit outcome (`Panic`) and never a default value.
* `Model*.v` files contain only definitions, each with a comment citing the
  file and lines it models. `Spec*.v`/the top of `Props*.v` contain the small
  independent specifications. `Proof*.v` contain lemmas. `Props*.v` contain the
  property theorems, each with an `Example` that satisfies the hypotheses and
  `Print Assumptions`.
* A statement that is false of the faithful model is kept as
  `..._refuted : exists ..., ~ ...`, proved with a concrete witness, beside the
  strongest true variant, which is named `..._partial` when it is weaker than
  the English property.
* External primitives (BLAKE3, Schnorr signing and verification, system clock,
  LMDB) are not axioms. Hash and signature functions are universally quantified
  parameters of the theorems (Section variables, generalised at section end);
  the clock is an input of every step; LMDB is modelled as sorted association
  lists with the documented cursor semantics and atomic transactions.

## Trusted base

* Coq's kernel (8.16.1), including `vm_compute`, which many examples and
  refutation witnesses use.
* `Print Assumptions` stands below every property theorem and prints "Closed
  under the global context" for every one of them: no axiom is used, neither of
  the project nor of the standard library. Only the standard library is
  imported (List, NArith, ZArith, Lia, Permutation, Sorted).
* `coqchk` also lists seven constants of `Coq.ssr.ssrunder` (parameters of a
  module type of the standard library, loaded through `Lia`); no theorem
  depends on them.
* The faithfulness of the `Model*.v` files to `/repo`. They were written by
  reading the source; nothing was extracted or executed. Each definition cites
  the lines it models, and its comment says where it is simpler.
* The specifications (`Spec*.v` and the definitions in `Props*.v` above a
  theorem) as readings of the English properties.
* What the theorems assume of the outside world, always as hypotheses: a hash
  function returns 32 bytes (`hash32`) and, where stated, does not collide on
  the packets at hand; a signature made with a key verifies (`crypto_ok`); LMDB
  transactions are atomic and its cursors move as documented.

## What is modelled

* **Spaces** (`ModelSpace.v`): `crates/pkt/src/space.rs`, `spacebuf.rs`,
  `rooted_space` code: the component codec, validation, rooting, the offset
  table, iteration and every editing operation.
* **Packets** (`ModelPkt.v`): content layout and builders (`pkt/src/builder`,
  `point.rs`, `point_parts`), `read_pkt` with all of its checks and with an
  explicit `Panic` for out-of-range accesses, sizes, `calc_free_space`, routing
  (`ReroutePkt`), comparison. Not modelled: the unsafe pointer layout itself
  (the thin/wide packet pointers are the same byte string here).
* **Streams** (`ModelStream.v`): the packet decoder over chunked readers,
  `lk_read`, the private-group checks.
* **Tree keys** (`ModelTree.v`): `core/src/env/tree_key.rs` keys and values.
* **Predicate sets** (`ModelTestSet.v`): `core/src/predicate/` `TestSet`,
  `UInt`/`Bound` arithmetic, compilation to comparisons, the membership
  iterator of index predicates.
* **Store** (`ModelStore.v`): `core/src/env/lmdb/` `save.rs`, the three tables,
  transactions, the log pointer clock, reading back by stamp and hash.
* **Predicates** (`ModelPred.v`): `core/src/predicate/pkt_predicates.rs` and
  `predicate_type.rs`: adding predicates, the state they compile to, the tests
  run on a packet. Not modelled here: the text form of predicates.
* **Queries** (`ModelQuery.v`): `core/src/env/lmdb/queries.rs`, `tree_iter.rs`,
  `db.rs` cursor functions, `stamp_range.rs`, `treekey.rs`: hash, log and tree
  order with both directions, the skip scan, and the index limits. LMDB cursor
  operations are functions on sorted lists. After a failed seek the cursor's
  position is undefined by the model: `stale` is whatever entry it returns next.
* **Watches** (`ModelWatch.v`): `core/src/matcher/mod.rs` (registering, stopping, testing,
  `trigger`), `common/src/runtime/rx.rs` (`watch`, `process`, pending commands, `close`,
  `close_range`) and `lk_watch`, `lk_stop`, `lk_process`, `lk_get_all`, `lk_get` of
  `linkspace/src/lib.rs`. Callbacks are arbitrary functions of a state; the commands they give are
  run right after the callback returns. A borrow that fails at run time is `Panic`. Not modelled:
  the timing of `gc`. A callback does not read the store here; since the theorems hold for every function and state, a state that has the answers of its reads in
  advance gives the same run (`ModelFollow.v` and `ModelRun.v` have the option `follow` and `lk_process_while`).
* **ABE text** (`ModelAbe.v`): `crates/abe/src/abtxt.rs` (escaping and parsing of byte strings) and
  `crates/abe/src/ast.rs` (strict and lenient parsers, printing, `tokenize_abe_b`, `replace_abe`),
  `lk_tokenize_abe`. Simplified: the bracket depth is unbounded (i32 in the code), errors carry the
  kind but not the annotated context.
* **Byte formats** (`ModelFmt.v`): `crates/byte-fmt/src/lib.rs`, `endian_types.rs`, `ab.rs`-style
  fitting functions and the base64 coder they use. The base64 crate itself is modelled (6-bit
  regrouping, strict trailing bits, no padding for the url alphabet, canonical padding for the
  standard one) because the project's text forms depend on it; Rust's integer `Display` and
  `from_str` are modelled too.
* **Evaluation** (`ModelEval.v`): `crates/abe/src/eval.rs` (component lists, scopes, calls, macros,
  `eval`, `encode`) and `lk_eval`, `lk_try_encode`, `lk_encode` of the API. A scope is a record of a
  function lookup, a macro lookup and an encoder; evaluation takes fuel, one unit for each nested
  bracket or nested evaluation, and `OutOfFuel` is a separate result. Error texts are not modelled.
* **Functions of the core scope** (`ModelFn.v`): `crates/abe/src/scope/*.rs` (bytes, uint, base, logic,
  encode, comment, help), `core/src/eval.rs` (groups by name), `core/src/stamp_fmt.rs`,
  `pkt/src/space_fmt.rs`. An oracle record gives the texts of help, the clock, UTF-8 repair and the
  calendar form of stamps. Not modelled: argv and the environment, files, packet and database scopes.
* **Stamps as text** (`ModelStamp.v`): `core/src/stamp_fmt.rs` (parsing and printing durations, stamps as
  digits, offsets and `now`), `core/src/stamp_range.rs`. Printing divides in 64-bit floating point,
  modelled with Coq's SpecFloat. Calendar dates are left to the oracle.
* **Queries as text** (`ModelQText.v`): `core/src/predicate/exprs.rs` (statements, extended operators, printing),
  `pkt_predicates.rs` `iter` and the operand conversions, `core/src/query.rs`, `abe/src/abconf.rs` (options),
  `lk_query_parse`, `lk_query_push`, `lk_query_print`. The operand is converted before the point type is
  checked, which only changes which error is given. Not modelled: templates, `hash_eq` and other builders.
* **Headers and streams of packets** (`ModelNet.v`): `core/src/mut_header.rs` (changing the fields of a header),
  `common/src/pkt_stream_utils.rs` (the buffer of datapoints and the duplicate filter). The filter's index is
  read as a little-endian 64 bit number.
* **Names** (`ModelLns.v`): `common/src/protocols/lns/{name,mod,claim,public_claim,admin}.rs` — names and their text,
  claims, their tags, the entries for looking up names, the walk over live claims. What the reader finds (the newest
  vote of a key, a packet by its hash) and the order of the hash map are parameters. Not modelled: creating
  and saving votes, the local resolver (`local_claim.rs`), the evaluator functions of lns, keys in claims.
* **ModelHand** (protocols/mod.rs, protocols/handshake.rs, cli/handshake/src/main.rs): the pairwise group, the four
  steps of the handshake, and the `serve` and `connect` commands over the packet decoder of ModelStream. Clock readings are
  arguments. Not modelled: the single-step commands, forwarding the input, the writer's refusal of private packets, key files.
  Cryptography is the record `crypto`; C48_server_agreement and C48_client_agreement also take a hash without collisions, and
  say "the signature was made by the holder of the key" as a hypothesis on the accepted packet (`honest`, `signed_as`).
* **ModelBus** (crates/ipcbus/src/udp_procbus.rs, inotify.rs): the bus as a transition system of processes, threads and datagrams at
  the granularity of atomic operations; the messages; the file of ports. The atomic variable is taken as sequentially consistent
  (it is one variable). The receiving thread is modelled as one thread per message, which allows more interleavings than the code.
  Little endian. Not modelled: sockets, the lock file, `wasmbus`, how inotify wakes other processes, the async variants.
* **ModelRun** (runtime/rx.rs:147-257, :481-491, lib.rs lk_process_while): the loop around `process`, driven by a list of turns: what others
  save and how the clock moves between looking at the log and waiting, and whether the wait ends by a wake-up, by the deadline or not
  yet. Instants and stamps are numbers on one clock. Not modelled: nested calls (an error in the code), `poll`, the tracing.
* **ModelHtml** (crates/pkt/src/repr.rs `to_html`, `to_str`, `fmt_b64`, `EscapeHTML`): the printed forms as bytes. The lossy text of bytes that
  are not UTF-8 is any function. SpecHtml reads the output with a part of the HTML standard's tokenizer and its rule for character
  references over any table. Not modelled: the `include` callback of `to_html`, other renderings of `DEFAULT_PKT`, that browsers drop a
  newline right after `<pre>`.
* **ModelKey** (crates/argon2-identity/src/lib.rs, `lk_key_encrypt`/`lk_key_decrypt`/`lk_key_pubkey`, `read_enckey` of lns/claim.rs): keys as text.
  argon2d and the bytes of k256 keys are parameters with sizes (`keylib_ok`). Not modelled: the environment variable for the
  password, the check of debug builds, generating keys.
* **ModelLkKey** (`lk_key` of crates/linkspace/src/lib.rs; lns/mod.rs `setup_special_keyclaim`, `lookup_claim`, `lookup_enckey`; lns/admin.rs
  `save_private_claim`, `ptr_lookup_entry`; lns/utils.rs; the query builders they use): one call from the text of the name to the store
  afterwards, over ModelKey, ModelLns, ModelQuery and ModelStore. Each reading of the clock is a separate parameter. Looking up
  public names is a parameter. Not modelled: the environment variables, key generation (the new key is a parameter), the admin argument.
* **Pull requests** (`ModelPull.v`, `SpecPull.v`, `ProofPull.v`, `PropsPull.v`): `linkspace/src/conventions/pull.rs` and the Display of queries, over
  ModelQText, ModelSpace, ModelPkt and ModelStore. Tracing is left out; the clock and the default routing header are parameters.
* **Status requests** (`ModelStatus.v`, `SpecStatus.v`, `ProofStatus.v`, `ProofStatus2.v`, `ProofStatus3.v`, `PropsStatus.v`):
  `linkspace/src/conventions/status.rs` over ModelQText, ModelPkt, ModelQuery, ModelStore and ModelWatch. The clock readings, the routing header, the callback and
  the update function are parameters; saving a reply is a command given by the callback. Not modelled: tracing, the failure of that save.
* **Handlers of watches** (`ModelFollow.v`, `SpecFollow.v`, `PropsFollow.v`): `common/src/runtime/handlers.rs` and `watch_query`
  (`rx.rs:359-383`), and the handler of `cli/linkspace/src/multi_watch.rs`. Callbacks here can read the store. Not modelled: `SinglePktHandler`, tracing.
* **Fields of packets in expressions** (`ModelPktScope.v`, `SpecPktScope.v`, `ProofPktScope.v`, `ProofPktScope2.v`, `PropsPktScope.v`): `pkt/src/eval.rs`
  `pkt_scope`, the accessors of `field_ids.rs`, `abe/src/scope/argv.rs`, and the scope of `lk_eval` with a packet and arguments. The contexts of
  `ModelEval.v` can evaluate with functions put in front of the scope, which `[/links:..]` needs. Not modelled: the scopes that need a runtime
  (`[/read..]`, the database name service), help texts, the Debug form of flags (any function).
* **Text of packets** (`SpecPktText.v`, `PropsPktText.v`): the functions `pkt`, `netpkt`, `point`, `pkt-quick` and `netbytes` of `ModelPktScope.v`, whose
  format is parsed and evaluated by `ModelAbe.v` and `ModelEval.v`.
* **Queries of the command line** (`ModelCliQuery.v`, `SpecCliQuery.v`, `ProofCliQuery*.v`, `PropsCliQuery.v`): the argument domain:group:space:depth, the
  shorthand arguments, the evaluation of the statements and the mode of the query. Text and evaluation are those of `ModelAbe.v` and `ModelEval.v`,
  the query that of `ModelQText.v`. The parsing of the arguments by clap and the printing of the query are not part of it.
* **Reading stored packets** (`ModelRead.v`, `SpecRead.v`, `ProofRead*.v`, `PropsRead.v`): the functions readhash and read and the macro readhash of the
  standard scope, over the store of `ModelStore.v`, the tree search of `ModelQuery.v` and the packet scope of `ModelPktScope.v`. The formats pkt, netpkt and
  point of a packet read evaluate in a scope that the context of the model cannot express and give no result in it; the evaluation of the expression of the
  macro, in the scope of the caller followed by that of the packet, is a parameter.
* **Encoding inside expressions** (`SpecEncode.v`, `ProofEncode.v`, `PropsEncode.v`): the functions ?, ??, ???, eval and the macros ?, ~?, e of `ModelFn.v`, against the
  API functions lk_try_encode and lk_eval of `ModelEval.v`.
* **Tests, alternatives and spaces in expressions** (`SpecLogic.v`, `ProofLogic.v`, `PropsLogic.v`): size?, val?, C and the macros or, // and /~/ of `ModelFn.v`.
* **Files** (`ModelFile.v`, `SpecFile.v`, `ProofFile.v`, `ProofFile2.v`, `ProofFile3.v`, `PropsFile.v`): files_data, set_files_data and check_path of crates/common/src/eval/file.rs, over
  a model of unix paths (std::path components and join), of the system's lookup of a path, and of read, write, mkdir and create_dir_all. There are no symbolic links, permissions or other processes:
  with a symbolic link below the directory the code does read and write outside of it.
* **Reader** (`ModelReader.v`, `SpecReader.v`, `ProofReader.v`, `ProofReader2.v`, `ProofReader3.v`, `ProofReader4.v`, `PropsReader.v`): crates/common/src/cli/reader.rs (Reader, ReadSource::read,
  check_size, open_reader after the delimiter is evaluated), write_datapoint of cli/linkspace/src/datapoint.rs and build_with_reader and linkpoint of cli/linkspace/src/point.rs, without the writing of the
  packets (C57) and with stamps given as a function of the number of the point. A source is its bytes; input errors are left out.
* **Collect** (`ModelCollect.v`, `SpecCollect.v`, `ProofCollect.v`, `ProofCollect2.v`, `PropsCollect.v`): cli/linkspace/src/collect.rs, both loops over a list of events (packet, timeout, end, bad input), and
  check_private, write_dest and write_multi_dest of crates/common/src/cli/opts.rs. Tags and links are functions of the packet in scope; the writes do not fail, and packets are written as they are
  (no expression for the output).
* **Rewrite** (`ModelRewrite.v`, `SpecRewrite.v`, `ProofRewrite.v`, `PropsRewrite.v`): cli/linkspace/src/rewrite.rs, over the events, the reader of data and the destinations of Collect. Options
  are functions of the packet in scope, the key is what `identity` gives.
* **Select** (`ModelSelect.v`, `SpecSelect.v`, `ProofSelect.v`, `PropsSelect.v`): cli/linkspace/src/filter.rs, statements2query, and WatchEntry::update_tests for a query that is replaced; the tests
  are those of Watch. The statements are a function of the packet in scope; options of a query (`:mode`, …) are ignored by the command and left out.
* **Links** (`ModelLinks.v`, `SpecLinks.v`, `PropsLinks.v`): cli/linkspace/src/get_links.rs for the modes skip and error. Looking a link up is a function from hashes to packets: neither mode
  processes new packets, so the reader's snapshot does not change during the command, and a packet the command saves itself is not seen. A write that fails is taken to have written nothing.
* **Save** (`ModelSave.v`, `SpecSave.v`, `PropsSave.v`): cli/linkspace/src/save.rs over the store of Store and the destinations of Collect. The clock and the failures of the store are functions of the
  packet's number. The net header (a hop is counted when a packet is read) is that of the packets of the input.
* **Multi** (`ModelMulti.v`, `ProofMulti.v`, `PropsMulti.v`): cli/linkspace/src/multi_watch.rs:69-92. The statements of QText with the query that a failing one leaves behind. Reading the packets and starting
  the watch are not part of it.
* **Py** (`ModelPy.v`, `SpecPy.v`, `PropsPy.v`): ffi/linkspace-py/src/pynetpkt.rs `Pkt` and `Links`, lk_write and lk_save of lib.rs. The conversions of pyo3 are not part of it: arguments have the size their
  type says.
* **Pktf** (`ModelPktf.v`, `SpecPktf.v`, `PropsPktf.v`): cli/linkspace/src/pktf.rs. A template is a function of the packet that may fail; the warning before the first packet is left out, and so is flushing.
* **Depth** (`ProofSound.v`, `PropsDepth.v`): tree queries over packets that declare a wrong depth; no new model.
* **Dest** (`ModelDest.v`, `SpecDest.v`, `PropsDest.v`): crates/common/src/cli/mod.rs `WriteDestSpec`, `write_pkt2`, and cli/opts.rs `write_dest`. A stream does not fail, and a file is known by its path.
* **ByHash** (`ModelByHash.v`, `SpecByHash.v`, `PropsByHash.v`): `lk_get_hashes`, `lk_hash_query`, and the callbacks of ffi/linkspace-py/src/lib.rs. A function of Python is a function of a state that gives a value or an exception; fewer than 2^31 hashes are asked for.
* **Uniform** (`ModelUniform.v`, `SpecUniform.v`, `PropsUniform.v`): `misc::bytes2uniform` with f64 as `spec_float` of the standard library (53 digits, exponents below 1024, round to nearest even).
* **PyPoint** (`ModelPyPoint.v`, `SpecPyPoint.v`, `PropsPyPoint.v`): `lk_linkpoint`, `lk_keypoint` and `Link` of the Python bindings with the forms of their arguments. Of pyo3 only this is modelled: `&[u8]` takes bytes, `&str` takes a text, iterating a text gives its characters.
* **Push** (`SpecPush.v`, `PropsPush.v`): `lk_query_push` against `lk_query_parse`, both of `ModelQText.v`, for all byte strings.
* **Js** (`ModelJs.v`, `SpecJs.v`, `PropsJs.v`): `lk_read`, `lk_read_unchecked` and `lk_write` of the JavaScript bindings, with the copy into a shared packet (`from_header_and_copy`). A copy whose length differs from the buffer is a panic in the model.
* **JsPoint** (`ModelJsPoint.v`, `SpecJsPoint.v`, `PropsJsPoint.v`): `lk_linkpoint` and `lk_keypoint` of the JavaScript bindings. JavaScript values are byte arrays, texts, iterables, objects with `ptr` and `tag`, values that count as false, and others; getters that throw are not modelled.
* **JsPkt** (`ModelJsPkt.v`, `SpecJsPkt.v`, `PropsJsPkt.v`): the properties of a packet in JavaScript, the iteration over its links, and making a packet again from what was read. Text, HTML and JSON forms of packets and links in JavaScript are not modelled here.
* **Open** (`ModelOpen.v`, `SpecOpen.v`, `PropsOpen.v`): opening a linkspace from several threads, the map of open databases, and the defaults of a thread. A call is two turns, before and after opening the database; the file system and opening a database are parameters.
* **Tls** (`ModelTls.v`, `SpecTls.v`, `PropsTls.v`): the default group and domain of each thread. Evaluating the variables is a parameter.
* **Keygen** (`ModelKeygen.v`, `SpecKeygen.v`, `PropsKeygen.v`): the key command and all its options but `--display-pass`. Encryption, what is in the database and what is typed are parameters; a password is taken as evaluated.
* **Partial** (`ModelPartial.v`, `SpecPartial.v`, `PropsPartial.v`): abbreviated hashes, over the base64 model of **Fmt**.
* **Serde** (`ModelSerde.v`, `SpecSerde.v`, `PropsSerde.v`): packets in other serialisation formats, over the packet model of **Pkt**; the format is a record of a writer and a reader.
* **SpMatch** (`ModelSpMatch.v`, `SpecSpMatch.v`, `PropsSpMatch.v`): the pattern macro for spaces, as a function of the pattern; a type of the pattern is its conversion function.
* **DbCheck** (`ModelDbCheck.v`, `SpecDbCheck.v`, `PropsDbCheck.v`): the check of the database over the store model of **Store**; the warnings it prints are left out.

## Findings: where the code does not do what a user would expect

Each is proved of the model, as a refutation of the property it contradicts or as a theorem
`Fnn_...` of its own.

* `calc_free_space` with signing over-estimates by 60 bytes (C07).
* Data and error points that declare fewer than 4 padding/size bytes make `lk_read` panic (C05).
* A rooted space with 8 components may declare any depth; iterating it panics (C15), it is
  indexed under the declared depth (C18), and a depth of 255 makes tree queries run forever (C34).
* Spaces with more than 8 components are accepted by validation (C12, C14, C56).
* Rerouting over keypoint parts drops the signature (C57).
* Saving in the same microsecond as the last stamp fails (C29).
* Rooted `extend_from_iter` that fails keeps the components added so far (C17).
* Predicate sets that can never match are accepted in some orders (C23); see also F14, F15, F18.
* Several fields can be named in predicates but panic when they are used (F13).
* Tree queries miss matching packets: with a `prefix` below a sibling space (C33_prefix_refuted),
  with a fixed depth (C33_depth_refuted), with a prefix and a public key (C33_pubkey_refuted), with
  a single create stamp descending (C33_create_refuted).
* `depth:>:8` is accepted and makes tree queries panic (F53).
* With a branch limit the answer depends on undefined cursor state (F48).
* Log queries ignore the upper bound on the receive stamp, both bounds descending, and apply the
  branch limit before the other predicates (C31).
* Hash queries in descending order abort (C30_descending_refuted).
* Stopping a range of watches removes none unless a watch has exactly the prefix as its id (C40).
* A watch whose index limits use masks may stay registered although it can match nothing (C38).
* `lk_process` called in a callback aborts (F55); called in a callback during the database scan of
  `lk_watch` it makes that watch miss packets (F56).
* A `stopped` callback that adds or stops watches aborts when its watch was stopped from a callback
  (F24). Pending commands stay pending while no packet is new (F25).
* `lk_get_all` counts results that the limits skip (C61).
* See also C58, C59, C60 and F44, F46, F47, F50.

* **F57** (C64_lossless_refuted) `tokenize_abe_b` drops an empty last component: `a/` and `a` give the
  same components (ast.rs:575-604).
* **F58** (F58_exclude_twice) `lk_tokenize_abe` folds the excluded delimiters with exclusive or: a
  delimiter given twice is not excluded (linkspace/src/lib.rs:320-323).
* **F59** (C65_empty_pattern_refuted) `replace_abe` panics on an empty pattern (`windows(0)`).

* **F26, F27, F60** (C45_total_refuted) `[replace:x::y]` never ends (bytes.rs:127-142); `[+::]` and
  `[-::]` panic on `len() - 1` (uint.rs:16-45); `[lpad::9223372036854775808]` panics with a capacity
  overflow (bytes.rs:19-65).
* **F28** (C43_numbers_refuted, C43_numbers_exact) `b2` and `b16` drop leading zero bytes: the encoder
  writes `[b16:0001]` for the bytes 0, 1, which evaluates to the byte 1 (base.rs:12-52).
* **F37** (F37_si_useless) `[si:..]` takes the larger of its end and 9 instead of the smaller, so the
  range is never valid (space_fmt.rs parse_range).
* **F38** (C43_space_refuted) `s` writes the empty space as `[/]`, which is an error.
* **F61, F65** (C45_slice_refuted) slice bounds of 2^63 and more wrap around; `-0` is the end.
* **F63** (C43_ab_abe_refuted, C66_space_abe_refuted) `AB::write_abe` escapes its bytes into an
  expression that is not parsed again (byte-fmt/src/lib.rs:157-167): domains, tags and 16 byte space
  components with special characters change. The text form is right.
* **F66** (C67_terminates_refuted) A text can evaluate itself:
  `[replace:\[replace\:Q\:\\x51\:\[?a\:Q\]\/eval\]:\x51:[?a:\[replace\:Q\:\\x51\:\[?a\:Q\]\/eval\]]/eval]`
  recurses until the stack overflows, so evaluating untrusted text can abort the process.
* **F16** (F16_asc_from) The range "from" a stamp is the range after it: the stamp itself is left out.
* **F40** (F40_not_utf8) A duration whose digits are not UTF-8 (`[now:+\xfas]`) aborts.
* **F67** (F67_checked_huge) A checked step by more than the last stamp is no error when it starts at the
  other end of the range: `[epoch:+4294967295Y]` is the last stamp.
* **F68** (C68_print_duration_refuted) Durations are split with floating point quotients, which round up
  for long ones: the text then names a longer duration (stamp_fmt.rs).
* **F70** (C53_durationstr_refuted) `DurationStr::stamp` casts to 64 bits and wraps: `584943Y` becomes
  400 years (stamp_fmt.rs:191-195).
* **F19** (C62_vacuous_refuted, C62_operands_refuted) `>=` the least and `<=` the greatest value add no
  predicate, so packets without the field are accepted; `domain:<=:\xff` is no bound; an empty operand
  panics; base64 operands are decremented as text; masks on `recv` are ignored (exprs.rs:105-166, uint.rs).
* **F71** (F71_push_panics) `lk_query_push` with the fields `data`, `signature`, `rspacename` or `compN`
  reaches a panic (exprs.rs:238-247, pkt_predicates.rs).
* **F72** (F72_options) An option without a value (`:follow`) is never found by `get_option`, because its one
  component is shorter than the two searched for (abconf.rs:84-98).
* **F73** (C69_hash_order_refuted, C69_options_refuted, C69_expressions_refuted, C69_refused_ex) Printing a
  query changes it: a hash between two values becomes `hash:=` and limits the query to one position; the
  options are reversed, so another duplicate counts; domains with special characters are escaped twice
  when printed as expressions; a query for datapoints in a space is accepted but its text is refused.
* **F22** (C46_assignment_refuted) Assigning to a field of a header sets the bits of the value but does not clear the
  others: the mask that should clear is or-ed with what is set (mut_header.rs). Mask operators are always
  refused, although the mask fields exist.
* **F32** (C54_zero_hash_refuted, F32_no_slots) The duplicate filter reports the zero hash as seen from the start and
  divides by zero when created with capacity 0.
* **F69** (F69_dropped) The datapoint buffer silently drops unlinked datapoints: the warning is printed when nothing
  is dropped and not otherwise (pkt_stream_utils.rs:40-42).
* **F39** (F39_depth) The query for votes asks for `depth = 2`, so votes on names of two or more components (depth 3
  and more) are never found (public_claim.rs:77).
* (C50_tie_refuted, C50_half_refuted) Ties are looked for from the wrong end of the sorted list: two best claims beside a
  worse one are no tie and the order of a hash map picks one. The count stops at half of the votes, so with
  an even number of authorities the order of the parent's links can decide (public_claim.rs:81, 159-171).
* **F74** (F74_other_name) A vote may point to the claim of another name; it is returned as the claim of the
  resolved name. If that name has seven components, the next step panics.
* **F75** (F75_expired_live) Resolution does not look at the expiry of claims.
* **F76** (F76_double_votes) A key listed twice as an authority has two votes.
* **F77** (F77_tag_suffix) A claim's group and key are found by the last bytes of a tag, so other tags ending in
  `group#` count.
* (C51_root_refuted) The root name prints as `[LNS-ROOT]`, which is not a function, and no text reads as the root name.
* **F78** (F78_group_shared) The pairwise group does not determine the pair: every key has some partner key giving the same group.
* **F79** (F79_role_confusion) The server's last check does not look at the tag of the link. A packet that the other party
  made as a server (`auth`) is accepted where its answer as a client (`signed`) is expected: whoever forwards the server's
  answer to that party as a first message completes the handshake in its name (handshake.rs:165-168, 76).
* **F80** (F80_answers_any_keypoint) The server answers any recent packet signed by another key, whatever its domain, group and space.
* **F81** (F81_no_stamp_check) The last check has no clock, so an answer of any age is accepted.
* **F82** (F82_hop_panics) A packet whose hop count is zero (`--hop false`, or the library without the decoder) is a panic.
* **F83** (F83_datagram_panics) A datagram shorter than 8 bytes to the multicast address panics the receiving thread of every process on
  the bus (`split_at`), which then never hears of packets saved by others (udp_procbus.rs:131).
* **C52_check_then_wait_refuted** An emit between reading the value (or the log) and registering in `next_deadline` is not noticed:
  the thread sleeps until the next emit or its deadline (udp_procbus.rs:148-168).
* **F84** (F84_emit_result) `emit` of the inotify bus returns the emitted value although a larger one is there; the other returns the larger.
* **C71_distinct_refuted** From the 55034th bus on all get port 65535 (`saturating_add`, udp_procbus.rs:48).
* **F85** (F85_torn_file) If the file of ports was cut short (it is rewritten in place), new records are appended unaligned: two buses get
  one port, and one bus can get a new port with every process, so its processes do not hear each other.
* **C72_lost_wakeup_refuted** `run_while` waits for the *next* event: a packet saved between `process` and the wait is not handled
  until something else is saved (rx.rs:251; see C52).
* **C72_own_save_refuted** What a callback saves during the last `process` is not noticed either: `written` is set nowhere in the
  path, so the loop sleeps with its own packets unhandled.
* **C72_dropped_refuted** The loop goes on sleeping after the cleaning dropped its own watch, as long as there is another one; the
  dropped watch's `stopped` is never called.
* **F86** (F86_spins) With commands pending and nothing new in the log (F25) the loop runs without ever waiting or handling them.
* **F87** (F87_dropped_before_delivery) The cleaning compares with the clock, not with the log: a packet stored within the receive
  bound, but not yet handled, is never given to the watch.
* **C55_text_refuted** `EscapeHTML` writes `&lt`, `&gt`, `&amp` without the semicolon: data `<;` and `<` are shown alike.
* **F88** (F88_other_character) For the same reason data `<dot;` is shown as the character ⋖ (`&ltdot;`).
* **F89** (F89_text_not_unique) The text of an encrypted key is not unique: anything may follow another `$`, options after the third and
  options without `=` are skipped, numbers may have `+` and zeros (argon2-identity lib.rs:40-78).
* **F90** (F90_long_text) Only the first 130 bytes of a claim's data are read: a text made with larger costs decrypts but is not found in the claim
  (lns/claim.rs:80-88).
* **C33_branch_count_refuted** The limit per branch (`i_branch`, `max_branch`) counts packets before the predicates on size, type and net header are
  tested: "at most one per branch" can leave out the only packet that matches (queries.rs:95-118).
* **C75_overwrite_refuted** Setting the key of a name with overwrite succeeds, but claims of keys all have the create stamp zero, so the one with
  the larger hash is found: the name may go on giving the old key, with the old password (lns/mod.rs:196-232, cli/keys.rs:212-231).
* **F91** (F91_name_taken) A point at the private space of the name that is no claim (one without links, say) and comes first takes the name: no key is
  found and none can be made with `lk_key`.
* **C76_qid_refuted** `lk_pull_point` panics for a query whose qid is empty or longer than 186 bytes: the space is built with `rspace_buf`, which unwraps
  (conventions/pull.rs:44, pkt/src/rooted_space.rs:368).
* **C76_domain_refuted** A pull request of a query in a domain such as `a:b` has a text that asks for the domain `a\:b` (as C69_expressions_refuted), while its
  space names the right one.
* **F92** (C77_found_refuted) `lk_status_watch` without an instance does not find a recent reply in the store if the local group has, in the same domain, a point
  at the same depth in a space that sorts later: the tree search for a prefix skips it (as C33_prefix_refuted). It returns false although a reply is there.
* **F93** (C77_asks_refuted) A recent request for one instance counts as a request for all instances (prefix match), so that the other instances are never asked.
* **F94** (C77_break_refuted) A callback that breaks during the first pass of `lk_status_watch` is registered all the same and called again
  (status.rs:132-154). Breaking before a request is reached also makes a new request.
* **F95** (C77_set_local_refuted) The query of `lk_status_set` has neither group nor domain (status.rs:219-231): a point without data and links in any group and
  domain, with that space, is answered.
* **F96_oldest_request_counts** The time to wait is counted from the last request visited, which is the oldest of the place, not from the latest one: replies to the
  latest request are not delivered.
* **F97_deeper_requests_answered** A request for a space below the instance is answered, since only spaces of the same depth are compared (status.rs:237-243).
* **F98** (C78_stopped_refuted, C78_notify_refuted) `FollowHandler` does not define `stopped` (handlers.rs:88-125): with the option `follow` a callback is
  never told that its watch ended, and `notify-close` together with `follow` never notifies. C78_bare_refuted: by F72 `:follow` has no effect, only `:follow:x`.
* **F99** (C79_space_refuted) `[rspacename:str]` and `[rspacename:abe]` show the plain space, while `[rspacename]` gives the rooted bytes
  (field_ids.rs:447, 496, marked TODO in the source); `[spacename:abe]` is not an expression for the bytes of the space but for its components.
* **F100_quick_differs** The help of `[pkt-quick]` says it is the same as `[pkt]` without dynamic lookup; it writes a missing key as 32 zero bytes where
  `[pkt]` writes `[@:none]`, and `[pkt]` has an empty line before the data and one more at the end (eval.rs:104, repr.rs:21-33).
* **F101** (C81_default_domain_refuted) When the domain is left out, the default domain is put into the query with its special characters escaped, but is
  not read as text again, so that a query for the default domain `a:b` looks for `a\:b` (dgs.rs:178, cf. C76_domain_refuted).
* **F102_mode_replaced** The mode of a query given as an expression (`:mode:log-asc`) is replaced by the default value of `--mode` (watch.rs:82, 92-95).
* **F103** (C81_qid_refuted, C81_follow_refuted) The command `watch` replaces the name given by `--qid` by `<cli>` (watch.rs:119), and `--follow` has no effect (F72).
* **F104_private** `[readhash:…]` gives packets of the private group without LK_PRIVATE, which `[read:…]` asks for because expressions may come from others
  (mod.rs:81-88, 120-136).
* **F105_help** The example in the help text of read, `[read:mydomain:[#:pub]:[//a/space]:[@:me]::data:str]`, has an empty argument where the name of the
  function is: it fails for every store (mod.rs:100, 143).
* **F106_empty** An empty group or key argument of read is an error; defaults are used only for arguments left out at the end (mod.rs:74-78, 90-94).
* **F107** (C82_read_refuted, C82_place_refuted) The query of read has a prefix and no depth, and takes the first result of the tree search: it gives packets below
  the place asked for, and the search can pass the place itself (cf. C33).
* **F108** (C82_alternative_refuted) The macro readhash asks for one more argument after the alternative (`it.next().context("to many args?")?`), so that the form of
  its help text is an error (mod.rs:166-170). Its expression is evaluated in the scope of the caller first: where that has a packet already, the functions are those of the
  outer packet, not of the packet read (mod.rs:172, C82_macro).
* **F109** (C83_args_refuted) `[???:V:s]` is empty for every space whose text has no colon: what is left out is everything up to the first colon, or all of it
  (encode.rs:90-94).
* **F110** (F110_empty_component_dropped) `[//a/[expr]]` with an expression that gives nothing is the space /a: the macro whose help says that only its variant `~`
  is forgiving on empty components drops them as well (space_fmt.rs:76-86).
* **F111** (F111_leading_dot) `files_data("./a")` is refused, `files_data("b/./a")` is not: std::path keeps a leading dot as a component and drops the others, and check_path
  refuses all components but names (file.rs:87-95).
* **F112** (C86_carry_refuted) `--data-overflow carry` corrupts data: the overflow of the newer read is put in front of the bytes kept from before, in check_size (reader.rs:286-291),
  so a line of fifteen bytes read with four bytes free, abcdefghijklmno, comes out as abcd jefg ohik lmn.
* **F113** (F113_limit_drops) With `--data-reads` the bytes left over from the last read are dropped silently, as the limit is checked before them (reader.rs:239-252).
* **F114** (F114_no_data_no_end) `lk link --multi` without a source of data, its default, and `lk datapoint --no-data` never end: each call gives an empty block (reader.rs:259-262).
* **F115** (F115_empty_read_is_end) With `--data-bufsize 0`, or no free space, a read of nothing is taken for the end of the data (reader.rs:264-267).
* **F116** (C86_sign_refuted) `lk link --sign` panics whenever the input has as many bytes as the free space it computes, since that is 60 bytes too much for signed points (C07).
* **F117** (C87_data_refuted) `lk collect`: when the reader has no more data for a point, the links gathered since the last result and the packets forwarded to the buffer are dropped and the command
  succeeds (collect.rs:96-108, 192-195).
* **F118** (C87_empty_refuted) `lk collect --chain-tag` (or with links of the point) makes results without packets although `--allow-empty` is not given: the test looks at all links, also those the result
  starts with (collect.rs:91, 199). This happens at the end of every input whose packets fill the results exactly, and at every interval without packets.
* **F119** (F119_bad_input) `lk collect --min-interval` takes input that is not a packet for the end of the input and succeeds, as nobody reads the result of the reading thread (collect.rs:211-224).
* **F120** (C88_error_refuted) `lk rewrite` panics at an error point (`todo!()`, rewrite.rs:183), which the reader of packets accepts; the rest of the stream is lost.
* **F121** (C89_rest_refuted) `lk filter` with a limit (`i`, `i_new`, or `hash:=`, which implies `i:=:0`) stops reading after the last packet it takes. The packets after it are written neither to `--write` nor to
  `--write-false`, the "destination for filtered packets" (filter.rs:20-22, 80-82).
* **F122** (C90_error_refuted) `lk get-links -r N error` succeeds although a link below the first level is not found: the callback of the watch is a `try_cb`, which logs the error and drops it, and lk_watch
  then returns that a packet was found (get_links.rs:56-69). The remaining links of that packet are not followed either.
* **F123** (C90_private_refuted) For the same reason a failing write of a linked packet (a private one with `--private-write=false`, a missing buffer) is ignored, while it makes the command fail for a packet of the input.
* **F124** (C91_same_time_refuted) `lk save` stops with an error in the middle of a stream when a new packet is saved at the clock reading of the last stored one (the consequence of C29_same_stamp_refuted for the
  command); the packets before it stay saved.
* **F125** (C92_unfit_refuted) `lk multi-watch --or A --or B` refuses a query that B can be added to, when A fails: the alternatives are parsed into the same query, and a failing statement has already narrowed it
  (pkt_predicates.rs:237 says so). The example of the documentation refuses `domain:=:hello`, though its second alternative is just that.
* **F126** (C92_query_refuted) After a failing alternative the watch can report packets that do not satisfy the query: a failing equality next to a mask leaves a set that compiles to the equality alone.
* **F127** (C93_hash_refuted) `hash(pkt)` in Python panics for every packet: `__hash__` takes the slice `8..8` and unwraps its conversion to 8 bytes (pynetpkt.rs:70-73). Packets cannot be in a set or be the
  key of a dictionary, though `==` is defined.
* **F128** (C93_item_refuted, C93_save_refuted) After `p.hop = b` in Python, `p.hop` and lk_write show the new value, but `p["hop"]` and str(p) show the old one, and lk_save stores the old one: they go
  through `netpktptr()`, the packet below the changed header.
* **F129** (C93_flags_refuted) `p.netflags = p.netflags` panics for a received packet with one of the bits 16, 32 or 64 in its flags, which reading accepts.
* **F130** (C93_comps_refuted) `p.comp_list()` panics for a received packet of eight components with a depth byte above 8, and leaves components out when it is below.
* **F131** (C94_error_point_refuted) `lk pktf` panics on an error point in its input, also when --error is given: the type falls into a `todo!()` (pktf.rs:149).
* **F132** (C94_inspect_refuted) `lk pktf --inspect` without --private prints the packets of the private group and then leaves them out of the stream that goes on, though it is documented as `tee`.
* **F133** (F133_more_templates) A fourth template is ignored without notice, also if it cannot be read.
* **F134** (C33_depth_byte_refuted) A valid packet in a space of eight components that declares a depth from 9 to 254 is stored and in the log, but no tree query returns it.
* **F135** (C95_tail_refuted) In `stdout-expr:[hash]:[group]` everything after the second colon is dropped without notice; without `-expr` the same mistake is refused.
* **F136** (C95_db_expr_refuted) `db-expr:EXPR` (and `null-expr`) is accepted, but the expression is ignored: the packet is saved as it is, also if the expression has no value.
* **F137** (C95_zero_refuted) `file:\0db` writes to the database: the other destinations are encoded as paths that start with a zero byte.
* **F138** (C96_exception_refuted) In Python an exception of the function given to `lk_get_all` or `lk_get_hashes` does not stop the enumeration, and is forgotten when a later call does not raise: `cb_err` is assigned at every call.
* **F139** (C96_on_close_refuted) In Python a watch with an `on_close` panics when it ends: `stopped` is a `todo!`.
* **F140** (C98_text_domain_refuted) `linkspace.pyi` allows a `str` as `domain` of `lk_linkpoint` and `lk_keypoint`; `domain_arg` takes bytes only and the call raises.
* **F141** (C98_text_space_refuted) `linkspace.pyi` allows a `str` as `spacename`; it is iterated, so `spacename="/a/b"` is the space of the four components `/`, `a`, `/`, `b`.
* **F142** (C98_deep_refuted) The bytes of a space with more than eight components are accepted as `spacename` and the components after the eighth are dropped silently.
* **F143** (read, not modelled) `linkspace.pyi` lists `group` as the first parameter of `lk_linkpoint`; the function takes `data` first, so a group given by position becomes the data.
* **F144** (C100, `C100_validate_refuted`): the TypeScript signatures of `lk_read` and `lk_read_unchecked` (ffi/linkspace-js/src/lib.rs:243-264) call the second argument `validate`; the functions take it as `allow_private`. `lk_read_unchecked(bytes, true)` validates nothing, and `lk_read(bytes, true)` lets packets of the private group through.
* **F145** (C101, `C101_link_bytes_refuted`): `try_as_link` (ffi/linkspace-js/src/lib.rs:170-188) means to take the 48 bytes of a link, but only when reading the property `ptr` throws. On a `Uint8Array` it gives `undefined`, so the call throws; the branch is never taken with success.
* **F146** (C101, `C101_deep_refuted`): as in Python (F142), the bytes of a space with more than eight components are accepted and the components after the eighth are dropped.
* **F147** (C102, `C102_array_refuted`): `links_array()` gives arrays of tag and pointer, which `lk_linkpoint` and `lk_keypoint` refuse as `links`; `links` and `links_bytes()` are accepted.
* **F148** (C103, `C103_once_refuted`): two threads that open the same directory for the first time at once each open the database, since the map is read and written under separate locks; LMDB does not allow an environment to be opened twice in a process.
* **F149** (C103, `C103_clone_refuted`, `C103_get_refuted`): the comment on `open_linkspace_dir` says that without a path the first opened is cloned; it opens the default directory. `get_lk` does give the first opened, also when asked for another directory.
* **F150** (C104, `C104_read_settles`): reading the default group or domain, as making a packet without one does in Python, settles it, after which `set_group` and `set_domain` panic unless given the same value; the message says it can only be set once.
* **F151** (C105, `C105_new_pass_refuted`): `key --new-pass --overwrite` without `--enckey` opens the key of the name with the old password, encrypts it under the new one, then drops that and saves a newly generated key under the name: the identity is replaced instead of its password.
* **F152** (C106, `C106_panics_refuted`): an abbreviation is checked in whole groups of four characters only, so `Ghoa!` is accepted and `aprox_btree_idx` panics on it.
* **F153** (C106, `C106_order_refuted`): `str_greater_then` compares texts, whose characters are not in the order of the digits they stand for; a search that skips hashes by it, as the comment on `aprox_btree_idx` advises, does not follow the order of hashes.
* **F154** (C107, `C107_trailing_refuted`): bytes behind a packet in a serialised byte string are dropped without an error, so many byte strings are read as one packet.
* **F155** (C107, `C107_owned_refuted`): packets are read through a borrowed byte string, so a format that cannot lend one (such as JSON) writes packets that it never reads.
* **F156** (C109, `C109_tree_refuted`): the check of the database walks the tree with MDB_NEXT_DUP only, so it stops after the entries under the first key; an entry under any other key may point to no packet and the check still says that everything is ok.

## Properties

Proved properties name their theorems; for the others the plan is given.

* **C01 Datapoint wire round trip** (proved): `C01_datapoint_round_trip`, `C01_errorpoint_round_trip`, `C01_write_total`. For any hash of 32 bytes; error points included.
* **C02 Linkpoint wire round trip** (proved): `C02_linkpoint_round_trip`. Every field read back; offsets existentially quantified are fixed by C06_declared_sizes.
* **C03 Keypoint wire round trip** (proved): `C03_keypoint_round_trip`. For any signature scheme whose signatures verify (crypto_ok).
* **C04 A point accepted by lk_read is authentic and well formed** (proved): `C04_read_exact`, `C04_read_fields`. lk_read characterised exactly (iff) by the independent packet layout; fields read equal the layout's fields.
* **C05 lk_read never panics and never reads outside the packet** (partial): `C05_read_no_panic_partial`, `C05_read_panics_refuted`. The exact set of panicking inputs is proved: data/error points with declared size 0..3. Out-of-bounds slicing is modelled as Panic. The full claim is refuted by such an input.
* **C06 Builders enforce the size limits exactly** (proved): `C06_datapoint_limit`, `C06_linkpoint_limit`, `C06_keypoint_limit`, `C06_declared_sizes`.
* **C07 calc_free_space is what the builder accepts** (partial): `C07_free_space_linkpoint`, `C07_free_space_keypoint_partial`, `C07_free_space_keypoint_refuted`. Exact for link points; for keypoints the result is exactly 60 bytes too large (refuted, and the corrected statement proved).
* **C08 Streams of packets decode unambiguously** (proved): `C08_stream_of_packets`, `C08_prefix_requires_more`, `C08_complete_not_short`, `C08_prefix_free`.
* **C09 Stream decoding does not depend on how bytes arrive** (proved): `C09_chunking_independent`, `C09_decodes_packets`, `C09_decoder_is_read`, `C09_interrupted_body`. For every byte string (valid or not) and every cut into non-empty reads; one decoder step equals lk_read; interrupted body reads are transparent. A zero-length read inside a body is an error by std read_exact.
* **C10 The private group never crosses an I/O boundary by accident** (proved): `C10_read_private`, `C10_read_others`, `C10_write_private`, `C10_write_others`, `C10_write_ptr`, `C10_decoder_private`, `C10_decoder_all_private`. lk_read, lk_write (built and byte packets); the stream decoder is in the C10_decoder theorems.
* **C11 Point content determines the fields** (proved): `C11_content_determines_fields`.
* **C12 Space names round trip through their components** (partial): `C12_build_then_iterate`, `C12_iterate_accepted`, `C12_iterate_then_build_partial`, `C12_iterate_then_build_refuted`. Build-then-iterate proved; iterate-then-rebuild proved for at most 8 components and refuted beyond (validation accepts 9+ components, building does not).
* **C13 Space validation accepts exactly the documented spaces** (proved): `C13_validation_exact`, `C13_validation_total`, `C13_components_unique`, `C13_build_exact`, `C13_build_total`. Exact characterisation of validation and building; both total.
* **C14 Rooting a space preserves its components** (partial): `C14_rooting_exact`, `C14_rooting_preserves_partial`, `C14_rooting_preserves_refuted`. Rooting keeps exactly the first 8 components (C14_rooting_exact); the full statement holds up to 8 components and is refuted for valid spaces with more.
* **C15 A validated rooted space has a truthful offset table** (partial): `C15_validation_exact`, `C15_validation_total`, `C15_table_truthful_partial`, `C15_table_truthful_refuted`, `C15_encoding_unique_refuted`. Exact characterisation of validation; offsets, components and ranges always truthful, depth byte truthful below 8 components; refuted at exactly 8 components, where the depth byte is unchecked and iterating panics.
* **C16 Space prefix tests mean component prefixes** (proved): `C16_starts_with`, `C16_strip_prefix`.
* **C17 Space editing operations act on the component list** (partial): `C17_push`, `C17_push_front`, `C17_extend`, `C17_append`, `C17_prepend`, `C17_split_last`, `C17_split_first`, `C17_split_at`, `C17_scan`, `C17_rooted_append`, `C17_rooted_build`, `C17_rooted_extend_partial`, `C17_rooted_extend_refuted`. Every editing operation proved equal to the list operation; rooted extend_from_iter is refuted as atomic (a failed extend keeps the components added so far).
* **C18 Tree index order is the logical order** (partial): `C18_key_order`, `C18_in_tree_entry`, `C18_key_fields`, `C18_key_injective`, `C18_value_fields`, `C18_order_refuted`. Byte order of keys equals the logical order (group, domain, depth, components, key) for points whose depth byte is truthful; keys and values round trip and are injective. Refuted for accepted points with exactly 8 components, whose depth byte is unchecked.
* **C19 Packet comparison is a total order consistent with identity** (proved): `C19_read_carries`, `C19_total`, `C19_reflexive`, `C19_transitive`, `C19_equal_iff_same_hash`, `C19_order`, `C19_others_after`. Total, reflexive, antisymmetric, transitive; equal iff same hash (given no hash collision on the two packets); equals the tree order, then data/error points by hash.
* **C20 Adding a predicate is intersection** (proved): `C20_add_is_intersection`, `C20_try_add_is_intersection`, `C20_order`, `C20_bound_is_intersection`. For every width from 2 to 2^32-1 bits, every sequence of tests and every value; Bound-only sets (recv) separately.
* **C21 A printed predicate set re-parses to the same set** (proved): `C21_rules_round_trip`, `C21_rules_accepted`, `C21_reachable`, `C21_bound_round_trip`. Rules as a list of tests; their textual form is not part of this claim.
* **C22 Seeking to the next member of a predicate set is exact** (proved): `C22_info_exact`, `C22_min_value`, `C22_enumerate`, `C22_depths_exact`, `C22_next_depth`, `C22_depth_info`. For every set with a member. Finding F15 (the ALL depth constant omits depth 8) is a separate theorem.
* **C23 A query that can never match is rejected** (partial): `C23_refused_is_empty`, `C23_satisfiable_accepted`, `C23_accepted_nonempty_partial`, `C23_bound_exact`, `C23_contradictory_masks_refuted`. Refused sets are empty and satisfiable sequences are never refused; accepted sets are non-empty only when the masks do not contradict each other (refuted otherwise).
* **C24 Compiled predicates equal interpreted predicates** (proved): `C24_compiled_exact`, `C24_compiled_built`, `C24_trivial_iff`. For every set try_add lets through (all a query can contain). F18: an empty set built with add, which try_add refuses, compiles to a test that accepts a value.
* **C25 Saving keeps the three tables consistent** (proved): `C25_save_consistent`, `C25_history_consistent`, `C25_lookup_exact`, `C25_tree_entries`. Over the store model: LMDB tables as ordered lists, writes may fail at any position (faults record).
* **C26 Saving is idempotent and reports newness truthfully** (proved): `C26_lk_save_truthful`, `C26_idempotent`, `C26_count`. lk_save's boolean, the saved count and the stamp range are exact.
* **C27 Saving is atomic under crashes** (proved): `C27_atomic`. Atomicity of an LMDB transaction (copy replaced at commit) is an assumption of the model; what is proved is that save puts everything in one transaction and reports success only after it committed.
* **C28 Saved packets are never lost or altered** (proved): `C28_never_lost`, `C28_saved_is_readable`. For every later history of saves with arbitrary clocks and failures.
* **C29 A save with a valid new packet succeeds** (partial): `C29_save_succeeds_partial`, `C29_same_stamp_refuted`. Finding: with a clock reading equal to the last stored stamp the save fails (save.rs compares last > start instead of >=); proved for every other clock reading.
* **C30 Hash queries are exact** (partial): `C30_hash_query_exact`, `C30_descending_refuted`. Exact in ascending hash order for every valid store (spacename predicates: packets that declare their depth honestly); descending order always panics (refuted).
* **C31 Log queries are exact** (partial): `C31_log_query_partial`, `C31_log_query_exact_partial`, `C31_recv_refuted`, `C31_branch_limit_refuted`. Exact unless the receive stamp is bounded above (or at all when descending), both refuted; the branch limit, applied before the tests, is refuted too. C31_log_query_partial says exactly what is returned in the general case.
* **C32 Tree queries only return matching packets** (partial): `C32_returned_partial`, `C32_spacename_refuted`, `C32_tree_query_sound_partial`. For stores whose packets declare their depth honestly and possible predicates: every result is stored and matches, without repetition, in tree order (C32_tree_query_sound_partial). For every store of valid packets: every result is stored and matches, if no spacename predicate is used (C32_returned_partial); with one it is refuted by a packet of eight components that declares a smaller depth (C32_spacename_refuted). Missing: order and repetition over packets that declare a wrong depth.
* **C33 Tree queries return every matching packet** (partial): `C33_depth_byte_refuted`, `C33_tree_query_exact_partial`, `C33_branch_limits_partial`, `C33_prefix_refuted`, `C33_depth_refuted`, `C33_pubkey_refuted`, `C33_create_refuted`, `C33_branch_count_refuted`. Complete for the queries of `unskipped`, also with limits on branches, whose positions are stated exactly (C33_branch_limits_partial); refuted in five other ways: four kinds of predicates that make the search skip, and that the limit on branches counts packets that do not match. Packets that declare a depth from 9 to 254 are in no result (C33_depth_byte_refuted).
* **C34 Tree queries terminate** (partial): `C34_depth_byte_refuted`, `C34_terminates_partial`, `C34_one_result`, `C34_deep_refuted`. Terminates for honest stores and possible predicates; refuted for a store holding a packet with 8 components that declares depth 255: for every tree query over its group and domain, in either order, also with other packets stored.
* **C35 Result-index predicates select by position** (proved): `C35_positions`, `C35_stops`. Zip of a result sequence with an index set, for result sequences that fit the index width.
* **C36 A watch sees every matching packet exactly once, in order** (proved): `C36_delivery`, `C36_every_packet_once`, `C36_view_grows`, `C36_process_shows_all`. Any interleaving of saves, lk_process, other watches and stops, also from callbacks, that leaves this watch alone. C36_delivery covers limits and breaks; C36_view_grows and C36_process_shows_all say which packets come into view. A packet with receive stamp 0 is excluded (the first log position asked for is 1).
* **C37 A watch covers history and future without gap or overlap** (proved): `C37_history_then_new`, `C37_hash_history`, `C37_exactly_once`, `C37_new_only`. For callbacks that do not call lk_process during lk_watch: F56 shows the watch misses packets if they do. C37_history_then_new is relative to what the query returns (C30-C33); with a hash query both parts are exact.
* **C38 Watches end exactly when they can no longer match** (partial): `C38_removed_only_when_done`, `C38_registered_when_open`, `C38_gc`, `C38_masks_refuted`. A watch is removed only when it is done, and lk_watch registers it exactly when it is not. A watch that stays has positions left for limits with interval operators (the last clause of watch_after); with mask operators it may stay for ever (refuted).
* **C39 At most one watch per query id** (proved): `C39_one_watch_per_id`, `C39_stop_one`, `C39_watch_replaces`. In every reachable state; lk_stop and lk_watch outside of callbacks (inside they are queued until the packets are processed).
* **C40 Range stop removes every watch with the prefix** (partial): `C40_range_stop_partial`, `C40_no_such_id_partial`, `C40_range_stop_refuted`. Only when a watch has exactly the prefix as its id; otherwise nothing is removed (refuted).
* **C41 Text escaping round trips for all bytes** (proved): `C41_round_trip`, `C41_escaped`, `C41_parse_exact`, `C41_total`, `C41_injective`. Round trip, printable form, exact grammar of accepted text, totality.
* **C42 Printed expressions re-parse to the same expression** (proved): `C42_parse_exact`, `C42_print_parse`, `C42_parse_print`, `C42_lenient_agrees`, `C42_total`. Parsing characterised exactly by a grammar; printing any expression and parsing gives it with neighbouring byte strings joined. Bracket depth is unbounded here (i32 in the code).
* **C43 Encoders produce text that evaluates to the input** (partial): `C43_encode_partial`, `C43_lk_eval`, `C43_numbers_exact`, `C43_numbers_refuted`, `C43_space_refuted`, `C43_ab_str`, `C43_b64_str`, `C43_b64_abe`, `C43_int_abe`, `C43_ab_abe_refuted`. Proved for every option text, every encoder of the core scopes and any further faithful scopes. Exact conditions: b2/b16 iff the bytes are the shortest form of a number below 2^128 (refuted otherwise), s fails on the empty space and above eight components, AB's expression form (not its text form) is wrong for bytes that need escaping. Stamp encoders are not in the core scope's encoders.
* **C44 Fixed size byte formats round trip** (proved): `C44_fit`, `C44_trim`, `C44_trim_end`, `C44_ab_parse_exact`, `C44_ab_round_trip`, `C44_ab_vec`, `C44_b64_exact`, `C44_b64_print`, `C44_b64_parse_exact`, `C44_b64_round_trip`, `C44_b64_either`, `C44_b64_standard`, `C44_int_value`, `C44_int_bytes`, `C44_int_text`, `C44_int_parse_exact`, `C44_int_order`, `C44_int_saturating`, `C44_int_eval_bytes`, `C44_int_bits`. Print/parse round trips and exact grammars for AB, B64 (both alphabets) and all integer sizes of both endiannesses; padding, trimming, saturating arithmetic, order. Byte strings of unknown size parse back iff they have at most 65000 bytes. The expression forms are in C43.
* **C45 Byte-slice functions follow their documentation** (partial): `C45_pad`, `C45_pad_loose`, `C45_fixed`, `C45_cut`, `C45_replace`, `C45_slice`, `C45_add`, `C45_sub`, `C45_total_partial`, `C45_total_refuted`, `C45_slice_refuted`. Each function characterised exactly against a small specification; totality proved with exactly the three exceptions refuted: pad lengths of 2^63 and more, sums of two or more empty numbers, replacing the empty string. Slice indices of 2^63 and more and -0 are refuted.
* **C46 Setting a header field sets it** (partial): `C46_changes_partial`, `C46_sets_partial`, `C46_same_point`, `C46_other_operators`, `C46_other_fields`, `C46_assignment_refuted`. Exact result of every sequence of assignments; unassigned fields, the point and its hash stay the same; other operators and fields do nothing or are refused. 'Makes the field equal to the value' holds only if no other bit of it was set, and is refuted otherwise (F22).
* **C47 The pairwise group is symmetric and private only for oneself** (proved): `C47_symmetric`, `C47_private_iff`, `C47_partner`. For all 32-byte keys. F78: the group does not determine the pair.
* **C48 Handshake agreement** (proved): `C48_phase0`, `C48_phase1`, `C48_phase2`, `C48_phase3`, `C48_serve_sound`, `C48_connect_sound`, `C48_honest`, `C48_server_agreement`, `C48_client_agreement`. Each step is characterised exactly for all packets; whole runs for every byte stream and chunking; honest runs always succeed. Agreement assumes a hash without collisions and that the accepted signature was made by the holder of the key. F79: the party may have acted as a server rather than as the client.
* **C49 Name claims carry their expiry and tags faithfully** (proved): `C49_stamp_tag`, `C49_lns_tag`, `C49_claim_exact`, `C49_claim_made`, `C49_entry_links`, `C49_saved_entries`. Tags, claims and the links of lookup entries, for every claim, tag, list of links and clock. The packets that hold the entries and the database are modelled elsewhere.
* **C50 Name resolution picks the claim with most votes or reports a tie** (partial): `C50_majority`, `C50_best_partial`, `C50_tie_partial`, `C50_no_votes`, `C50_tie_refuted`, `C50_half_refuted`, `C50_root`. A majority always wins and no votes find nothing. The unique best claim wins and a tie of all claims is reported when no claim has exactly half of the votes (always so with an odd number of authorities, as the root has). Refuted otherwise: C50_half_refuted; and two best claims beside a worse one are not reported as a tie: C50_tie_refuted.
* **C51 Names and spaces are inverse** (partial): `C51_name_exact`, `C51_text_round_trip`, `C51_claim_space`, `C51_root_refuted`. Holds for every name; the root name, which cannot be made from components, is refuted.
* **C52 The process bus value is monotone and no wake-up is lost** (partial): `C52_monotone`, `C52_emit`, `C52_bounds`, `C52_agree`, `C52_registered`, `C52_woken`, `C52_check_then_wait_refuted`, `C52_message`, `C52_message_only`, `C52_shared`. All interleavings of the atomic steps, any number of processes; agreement needs that no datagram is lost (without that: C52_bounds). Registered waiters miss nothing; checking and then waiting does (C52_check_then_wait_refuted), which is what the runtime loop does (C72).
* **C53 Stamp arithmetic never wraps** (partial): `C53_saturating`, `C53_checked`, `C53_functions`, `C53_in_range`, `C53_durationstr_refuted`, `C53_durationstr_partial`. Proved for the saturating and checked operations and the functions of expressions (every argument list of at most 15 steps without a calendar format; each duration at most the last stamp for the exact value, any duration for the range). Refuted for the stamp of the command line's durations, which wraps modulo 2^64; proved there for durations of at most the last stamp.
* **C54 Duplicate filter never forgets a recent packet and never invents one** (partial): `C54_answers`, `C54_only_seen`, `C54_last_seen`, `C54_zero_hash_refuted`. Exact characterisation of every answer; 'only if it was inserted' is refuted for the zero hash (C54_zero_hash_refuted) and holds for all others.
* **C55 The html form of a packet is safe to paste and says what the packet is** (partial): `C55_page`, `C55_nested`, `C55_skeleton`, `C55_faithful`, `C55_escape`, `C55_escape_injective`, `C55_text_partial`, `C55_text_refuted`. Whole packets: the tokens a browser reads, their nesting, that the structure does not depend on contents, and that the page tells the packet. The escaped text shows as the text only when no special character is followed by a letter, digit or semicolon (C55_text_partial); otherwise refuted (C55_text_refuted), because the references lack their semicolon.
* **C56 No space with more than eight components** (partial): `C56_depth_limit_refuted`, `C56_depth_limit_partial`. Depth limit holds for the builders and rooted spaces; refuted for push, push_front, prepend and from_slice.
* **C57 Rerouting changes only the network header** (partial): `C57_reroute_bytes`, `C57_reroute_built_partial`, `C57_reroute_keypoint_refuted`. Holds for packets held as bytes and for built data, error and link points; refuted for freshly built keypoints, whose signature segment is dropped in release builds (debug builds assert).
* **C58 lk_read_unchecked skips only the hash and signature check** (partial): `C58_unchecked_debug`, `C58_unchecked_release`, `C58_unchecked_skips_refuted`. Only in debug builds; refuted in release builds, where lk_read_unchecked is lk_read.
* **C59 A truncated packet stream is reported** (partial): `C59_truncated_body_partial`, `C59_truncated_header_refuted`. Reported when the cut is at least 68 bytes into the packet; refuted for every cut inside the first 68 bytes, which ends the iteration silently.
* **C60 A query accepts a packet exactly when it satisfies every predicate** (partial): `C60_accepts_exactly`, `C60_accepts_all`, `C60_spacename_partial`, `C60_order`, `C60_refused_is_empty`, `C60_total`, `C60_limits`, `C60_spacename_refuted`, `C60_no_results_refused_partial`. Exact for every packet when no spacename predicate is used, and for packets whose depth byte is right otherwise. Finding: an eight-component packet that declares depth k is accepted by spacename of its first k components (refuted theorem). Operands are the converted values, not the ABE text. Conversely limits that leave no result are refused when they use interval operators.
* **C61 lk_get_all visits the results in order and says how many** (partial): `C61_get_all_partial`, `C61_count_refuted`, `C61_get_first`, `C61_get_first_tree_partial`. Without limits on the results; with them the skipped results are counted (refuted). The documentation of lk_get_all gives contradictory signs; the code returns a negative number after a break.
* **C62 Extended comparison operators mean what they say** (partial): `C62_accepts_exactly`, `C62_positions`, `C62_refused`, `C62_total`, `C62_text`, `C62_texts`, `C62_option`, `C62_vacuous_refuted`, `C62_operands_refuted`. For every list of statements on the numeric fields, recv and the limits, with operands of the field's size: the query accepts exactly the packets and positions the operators describe, and the text form is the same query. Refuted without the side conditions: >= least / <= greatest add no predicate at all (packets without the field pass), short domains of 255, empty operands (panic), base64 operands (decremented as text), masks on recv (ignored).
* **C63 A save announces the newest packet, if it stored any** (proved): `C63_announces_newest`.
* **C64 Splitting an expression into its top level components loses nothing** (partial): `C64_components_exact`, `C64_total`, `C64_lossless_refuted`, `C64_lossless_partial`. Components characterised exactly for duplicate-free exclusion lists. Losslessness is refuted for texts ending in a delimiter and proved for the others; F58: an exclusion given twice cancels.
* **C65 Replacing a pattern in an expression** (partial): `C65_replaces`, `C65_empty_pattern_refuted`. Exact for every nonempty pattern; an empty pattern panics.
* **C66 The text of a space reads back as the space** (partial): `C66_space_text`, `C66_space_abe_refuted`. Text form exact: reads back iff at most eight components. The expression form is refuted for 16 byte components that need escaping. F37: si never gives a value.
* **C67 Evaluating an expression always ends** (partial): `C67_terminates_refuted`, `C67_terminates_partial`. Refuted: a text of 102 printable characters evaluates itself forever in every scope that extends the core one. Proved without the function eval: the result is independent of the fuel above the nesting depth, and without replace evaluation ends.
* **C68 Texts of durations, stamps and ranges mean what they say and read back** (partial): `C68_parse_duration`, `C68_print_duration_partial`, `C68_print_duration_refuted`, `C68_stamp_text`, `C68_range_text`, `C68_delta_partial`. Parsing durations, stamp texts and range texts proved for every text. Printing and parsing a duration proved when the floating point quotients are exact; refuted in general: they round up for long durations.
* **C69 Printing a query and parsing the text gives the same query** (partial): `C69_print_parse`, `C69_hash_order_refuted`, `C69_options_refuted`, `C69_print_parse_expr`, `C69_expressions_refuted`. Print then parse gives the same packets and positions for every query without order predicates on the hash, printed without expressions in any scope, and printed with expressions in every scope with the core functions when domains need no escapes; the options come back reversed. Refuted: hash orders that leave one value, two options of one name, domains with special characters when printed as expressions.
* **C70 The datapoint buffer lets through exactly the linked datapoints** (proved): `C70_buffer`.
* **C71 Every instance has its own notification port, and keeps it** (partial): `C71_stable`, `C71_distinct`, `C71_distinct_refuted`. For all well-formed files; ports run out after 55034 buses (C71_distinct_refuted), F85: a torn file.
* **C72 lk_process_while serves all watches and tells how its watch ended** (partial): `C72_refuses`, `C72_result`, `C72_waits`, `C72_timeout`, `C72_processes`, `C72_matched`, `C72_no_backlog_partial`, `C72_lost_wakeup_refuted`, `C72_own_save_refuted`, `C72_dropped_refuted`. Result, waiting and equivalence with lk_process for all runs. "With every stored packet handled" only if nothing is saved between the look at the log and the wait (C72_no_backlog_partial); otherwise refuted (C72_lost_wakeup_refuted, C72_own_save_refuted). A watch dropped by its receive bound does not end the loop (C72_dropped_refuted).
* **C73 The text form of a packet is unambiguous** (proved): `C73_total`, `C73_unambiguous`. For all well-formed packets. The depth byte and the exact bytes of an unknown point type are not part of the text; the shown data are the lossy text of the first bytes.
* **C74 Encrypted keys open with their password only** (proved): `C74_text`, `C74_round_trip`, `C74_shown_key`, `C74_other_password`, `C74_accepts`, `C74_stored`. argon2d and the key library are parameters of which only sizes, and that a key's bytes are read back, are assumed. That another password gives only the same key or an error assumes that public keys are distinct.
* **C75 Keys are found by name** (partial): `C75_found`, `C75_linked`, `C75_created`, `C75_round_trip`, `C75_read_only`, `C75_no_overwrite`, `C75_no_entry`, `C75_overwrite_refuted`. C75_overwrite_refuted: overwriting writes a claim with the same create stamp (zero) as the old one, so which of the two is found depends on their hashes. Creation is proved for a store without hash collisions, with nothing at the two spaces used, with clock readings from 2 up to 2^63, and a clock reading that is no stamp of the log (see C29). Public names are looked up by a parameter.
* **C76 A pull request asks for the query it was made from, at its own place** (partial): `C76_request`, `C76_place`, `C76_apart`, `C76_saved`, `C76_refused`, `C76_qid_refuted`, `C76_domain_refuted`. Proved for queries without order predicates on the hash and with domains that are written without escapes (as C69 with expressions). Refuted: an empty qid or one of more than 186 bytes panics; a domain with special characters is another domain in the text.
* **C77 Status requests are asked once, answered in a chain, and their replies delivered** (partial): `C77_space`, `C77_space_injective`, `C77_request`, `C77_overwatch`, `C77_watch_partial`, `C77_set_accepts_partial`, `C77_answers`, `C77_only_replies`, `C77_chain`, `C77_set`, `C77_set_watch`, `C77_found_refuted`, `C77_asks_refuted`, `C77_break_refuted`, `C77_set_local_refuted`. Proved as stated except that the packets found in the store need not be all of them (C77_found_refuted, the tree search of C33), that a request for one instance keeps one for all instances from being made (C77_asks_refuted), that a callback which breaks on a packet of the store is called again with later ones (C77_break_refuted), and that the query of lk_status_set asks for no group or domain (C77_set_local_refuted). That the replies are saved is a command of the callback (ModelWatch); its failure is not seen by the callback in the model.
* **C78 A followed watch shows each packet and then the stored packets it links to** (partial): `C78_follow`, `C78_plain`, `C78_notify`, `C78_no_notify`, `C78_stopped_refuted`, `C78_notify_refuted`, `C78_bare_refuted`. Refuted by the code: the handler of follow does not pass on that the watch ended (C78_stopped_refuted), so notify-close never notifies together with it (C78_notify_refuted); both are only seen when written with a value (C78_bare_refuted). The handler is modelled over the transaction it reads from; which packets a watch matches is C36.
* **C79 The fields of a packet in an expression** (partial): `C79_components`, `C79_field`, `C79_text`, `C79_expression`, `C79_refused`, `C79_core`, `C79_user`, `C79_recv`, `C79_links`, `C79_link`, `C79_each`, `C79_env`, `C79_args`, `C79_space_refuted`. Proved for all fields but the two spaces: their :abe form is a list of components, from which a space can be read but not the bytes, and the one of rspacename is that of the plain space (C79_space_refuted). The text of flags is the Debug form of a library and is any function here. [netpkt], [html-quick] and [pkt-quick] are in the model; the latter two are C55 and C73.
* **C80 The text of a packet** (proved): `C80_text`, `C80_netbytes`, `C80_quick`, `C80_unambiguous`. The scopes are those of lk_eval with a packet, without a runtime. The evaluation of the format is done in the scope of the caller, which already begins with the packet.
* **C81 Queries of the command line** (partial): `C81_argument`, `C81_query`, `C81_mode`, `C81_qid_refuted`, `C81_follow_refuted`, `C81_default_domain_refuted`. Refuted parts: --follow does not set the option, watch replaces the name given by --qid, and a default domain with special characters is escaped but never read back. The argument parser (clap) is not modelled; a space given as a single expression without a slash is not covered; further expressions are those that evaluate to numeric statements.
* **C82 Reading stored packets in expressions** (partial): `C82_readhash`, `C82_field`, `C82_missing`, `C82_read_partial`, `C82_private`, `C82_macro`, `C82_alternative_refuted`, `C82_alternative`, `C82_read_refuted`, `C82_place_refuted`. readhash is proved for every valid store. read is proved to give the latest packet of a place that begins with the space asked for, and to be complete when the space is empty (then a shallowest place is taken); refuted in general: a packet at exactly the space may be missed (C82_read_refuted) and one below it may be given instead (C82_place_refuted). The alternative of the macro is an error unless another argument follows (C82_alternative_refuted). The formats pkt, netpkt and point of a packet read are not covered; the scope in which the macro evaluates its expression is a parameter.
* **C83 Encoding and evaluating inside expressions** (partial): `C83_encode`, `C83_strip`, `C83_args`, `C83_eval`, `C83_round_trip_partial`, `C83_macro`, `C83_inner`, `C83_args_refuted`. Proved exactly, except that the text left by ??? need not tell the value: nothing is left of the text of a space (C83_args_refuted). The round trip has the conditions of C43.
* **C84 Tests, alternatives, comments and spaces in expressions** (proved): `C84_size`, `C84_val`, `C84_comment`, `C84_or`, `C84_space`, `C84_forgiving`. Proved exactly. Alternatives are assumed to have a value or an error, that is not to panic or run forever.
* **C85 The files of an instance** (proved): `C85_refused`, `C85_read`, `C85_expression`, `C85_write`, `C85_round_trip`. Proved exactly, for file systems without symbolic links, permissions and other processes (stated in ModelFile.v).
* **C86 Data read into points** (partial): `C86_data`, `C86_lines`, `C86_trim`, `C86_split`, `C86_error`, `C86_repeat`, `C86_carry_refuted`, `C86_datapoints`, `C86_points_partial`, `C86_one`, `C86_sign_refuted`. Refuted by the code for the overflow mode carry (C86_carry_refuted: bytes come out in another order) and for signed points (C86_sign_refuted: a panic, from the free space of C07). Proved for all other modes; C86_points_partial asks signed points for a buffer size with 60 bytes to spare. Input errors and files changed while read are not modelled.
* **C87 Collecting packets** (partial): `C87_links_partial`, `C87_private`, `C87_private_fails`, `C87_runs`, `C87_data_refuted`, `C87_empty_refuted`. Refuted by the code when the data of the points ends before the packets do (C87_data_refuted: the command succeeds, the packets since the last result are lost) and for chained results (C87_empty_refuted: results without packets although empty ones are not allowed). C87_links_partial covers every run that ends with its input. Expressions are functions of the packet; failing writes are not modelled.
* **C88 Rewriting packets** (partial): `C88_points`, `C88_same`, `C88_runs`, `C88_error_refuted`. Refuted by the code for error points (C88_error_refuted: a panic); all other claims are proved in full. Expressions are functions of the packet in scope; failing writes are not modelled.
* **C89 Filtering a stream** (partial): `C89_selected`, `C89_every_packet`, `C89_recv`, `C89_runs`, `C89_rest_refuted`. Refuted by the code with limits (C89_rest_refuted: packets after the last one taken are in neither output). C89_every_packet is the claim without limits; C89_selected says for every run which packets are read. Predicates on spaces need packets with a right depth byte, as in C60. At most 2^32-1 packets.
* **C90 Following links** (partial): `C90_skip`, `C90_bad_input`, `C90_reach`, `C90_error_partial`, `C90_error_refuted`, `C90_private_refuted`. Refuted by the code for errors below the first level: they are logged and dropped (C90_error_refuted, C90_private_refuted). C90_error_partial is the claim for `error` without recursion. The modes pause and watch are not modelled. The hash query of each link is taken to find the packet of the snapshot with that hash (see C30).
* **C91 Saving a stream** (partial): `C91_saved`, `C91_stopped`, `C91_no_db`, `C91_succeeds_partial`, `C91_same_time_refuted`. Refuted by the code for two packets saved at the same reading of the clock (C91_same_time_refuted, see C29); C91_succeeds_partial has the clock go on between packets. A failing write is taken to have written nothing.
* **C92 Queries with alternatives** (partial): `C92_none`, `C92_first_partial`, `C92_enforced`, `C92_unfit_refuted`, `C92_query_refuted`. Proved without alternatives (C92_none), when the first alternative can be added (C92_first_partial), and, whatever failed before, that only packets satisfying some alternative are watched (C92_enforced). Refuted by the code after an alternative that fails: C92_unfit_refuted, C92_query_refuted.
* **C93 Packets in Python** (partial): `C93_header`, `C93_flags_refuted`, `C93_compare`, `C93_transitive`, `C93_tree_order`, `C93_outside_after`, `C93_hash_refuted`, `C93_item_partial`, `C93_item_unknown`, `C93_item_refuted`, `C93_save_refuted`, `C93_links`, `C93_comps_partial`, `C93_comps_refuted`. Proved: the header attributes and lk_write (C93_header), the order (C93_compare, C93_transitive, C93_tree_order, C93_outside_after), the links (C93_links). Refuted by the code: hash() fails for every packet (C93_hash_refuted), items and lk_save ignore assigned headers (C93_item_refuted, C93_save_refuted), flags without a name cannot be assigned (C93_flags_refuted), comp_list trusts the depth byte (C93_comps_refuted); C93_item_partial and C93_comps_partial are what holds.
* **C94 Printing packets by templates** (partial): `C94_printed`, `C94_succeeds`, `C94_error_point_refuted`, `C94_inspect_refuted`. Proved for every run that succeeds (C94_printed), and that it succeeds when each packet has a text (C94_succeeds). Refuted by the code for error points (C94_error_point_refuted) and for forwarding packets of the private group (C94_inspect_refuted). Templates are any functions of the packet; how an expression is evaluated is in C67, C79 and others.
* **C95 Destinations of packets** (partial): `C95_names`, `C95_name_alone`, `C95_expr`, `C95_tail_refuted`, `C95_file`, `C95_file_expr`, `C95_any_file`, `C95_plain_file`, `C95_zero_refuted`, `C95_accepted`, `C95_written`, `C95_private`, `C95_private_refused`, `C95_buffer`, `C95_db_expr_refuted`. Proved: names, paths, expressions and what is written. Refuted by the code: a part after a second colon of an -expr text is dropped without notice (C95_tail_refuted), db-expr ignores its expression (C95_db_expr_refuted), and a file name that starts with a zero byte selects another destination (C95_zero_refuted). Opening the file itself and errors of streams are not modelled.
* **C96 Packets by hash, and callbacks in Python** (partial): `C96_get_hashes`, `C96_hash_query`, `C96_py_partial`, `C96_py_all_partial`, `C96_exception_refuted`, `C96_on_close_refuted`, `C96_py_watch`. Proved: lk_get_hashes and hash queries in Rust, and which packets the functions of Python see. Refuted by the code: an exception does not end the enumeration and is lost unless the last call raised it (C96_exception_refuted), and a watch with on_close panics when it ends (C96_on_close_refuted). What is raised is characterised in C96_py_partial and C96_py_all_partial.
* **C97 Numbers drawn from bytes** (proved): `C97_value`, `C97_range`, `C97_uniform`, `C97_order`, `C97_short`. Proved for every byte string, over the IEEE 754 specification of the standard library (Floats.SpecFloat), which is executable and uses no axiom.
* **C98 Making points in Python** (partial): `C98_made_partial`, `C98_only_partial`, `C98_text_domain_refuted`, `C98_text_space_refuted`, `C98_deep_refuted`, `C98_link`. Proved in both directions for arguments other than these three, where the code does not do what the interface says: a text as domain is refused (C98_text_domain_refuted), a text as space has its characters as components (C98_text_space_refuted), and of the bytes of a space deeper than eight the rest is dropped (C98_deep_refuted).
* **C99 Statements pushed and parsed** (partial): `C99_push_parse`, `C99_option`, `C99_many`, `C99_untestable_refuted`. Proved for every field but eleven: signature, rspacename, comp0 to comp7 and data are an error in a text but pushing them panics (C99_untestable_refuted, finding F71).
* **C100 Reading and writing packets in JavaScript** (partial): `C100_read`, `C100_unchecked`, `C100_need`, `C100_need_only`, `C100_write`, `C100_panics_refuted`, `C100_validate_refuted`. Everything but the absence of panics is proved: reading panics exactly on the headers that make the library panic (C100_panics_refuted; the finding of C05). The documentation calls the second argument validate, which it is not (C100_validate_refuted, finding F144).
* **C101 Making points in JavaScript** (partial): `C101_made_partial`, `C101_only_partial`, `C101_link_bytes_refuted`, `C101_deep_refuted`. Proved but for two cases the code gets wrong: the 48 bytes of a link in a list of links are refused (C101_link_bytes_refuted, finding F145), and of the bytes of a space the components after the eighth are dropped (C101_deep_refuted, finding F146).
* **C102 Packets in JavaScript** (partial): `C102_fields`, `C102_links`, `C102_comps_partial`, `C102_comps_refuted`, `C102_again`, `C102_array_refuted`. Proved but for the list of components of a packet whose depth byte is wrong (C102_comps_refuted, as C93) and for links_array, whose items are refused as links (C102_array_refuted, finding F147). Making again is proved for link points; a key point needs the key.
* **C103 Opening a linkspace** (partial): `C103_dir`, `C103_default`, `C103_get`, `C103_new`, `C103_once_partial`, `C103_once_refuted`, `C103_made`, `C103_runs`, `C103_fails`, `C103_clone_refuted`, `C103_get_refuted`. Proved for every interleaving but for the one session: that holds when no two threads are within a call at once (C103_once_partial) and is false otherwise (C103_once_refuted, finding F148). The file system is any function from the directories made so far; directories are not moved or removed meanwhile.
* **C104 The default group and domain of a thread** (proved): `C104_settled`, `C104_unsettled`, `C104_either`, `C104_read_settles`. Proved for every history. What the expression in a variable evaluates to is a parameter of each read. A default that was only read can no longer be set (C104_read_settles, finding F150).
* **C105 The key command** (partial): `C105_show`, `C105_generate`, `C105_overwrite`, `C105_new_pass_partial`, `C105_new_pass_refuted`, `C105_errors`, `C105_runs`. Proved but for a new password for the key of the name with --overwrite, which replaces the key by a new one (C105_new_pass_refuted, finding F151). Encryption, the lookup and saving are parameters here; they are modelled for C74 and in ModelLkKey.v.
* **C106 Abbreviated hashes** (partial): `C106_parse`, `C106_matches`, `C106_first`, `C106_between`, `C106_complete`, `C106_panics_refuted`, `C106_order_refuted`. Proved but for the characters after the last whole group of four, which are not checked and on which the index panics (C106_panics_refuted, finding F152), and for str_greater_then, which does not follow the order of hashes (C106_order_refuted, finding F153). For the same reason C106_parse asks for base64 characters in the whole groups only.
* **C107 Packets in other serialisation formats** (partial): `C107_sound`, `C107_written`, `C107_round_trip`, `C107_trailing_refuted`, `C107_owned_refuted`. Proved for formats that can lend bytes. The format is a record of two functions, with what is asked of it as a hypothesis. Bytes behind a packet are dropped without an error (C107_trailing_refuted, finding F154), and a format that cannot lend bytes writes packets it never reads (C107_owned_refuted, finding F155).
* **C108 Matching spaces against patterns** (proved): `C108_exact`, `C108_total`, `C108_literal`, `C108_unchecked`. Proved for every space; C108_unchecked adds what happens on byte strings that are not spaces.
* **C109 Checking the database** (partial): `C109_passes`, `C109_history`, `C109_hashes`, `C109_tree_partial`, `C109_tree_refuted`, `C109_errors`. Proved but for the tree, of which only the entries under the first key are checked (C109_tree_partial, C109_tree_refuted, finding F156). This rests on what LMDB documents and does for MDB_NEXT_DUP on a new cursor, which is part of the model and not checked here.

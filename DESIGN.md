# Design of the Rocq (Coq 8.16.1) model of tailcall

The source in `/repo` is read as text. Nothing here was extracted from it
mechanically: every definition in a `*Model.v` file was transcribed by hand and
carries the file and line range it models.

## Layout

`rocq/theories/` holds, for each area,

* `<Area>Model.v`  – the transcription of the code, definitions only;
* `<Area>Spec.v`   – a small specification that does not use the model's helpers
  (where the statement of the theorem needs one);
* `<Area>Proofs.v` – lemmas;
* `<Area>Props.v`  – the property theorems only. Each is closed by
  `exact some_lemma.`, followed by `Print Assumptions`, and next to it an
  `Example` showing that its hypotheses are met by a concrete non-trivial case.

Naming of theorems: `Cnn_...` proves (a part of) property Cnn;
`Cnn_..._refuted` is a machine-checked counterexample: the transcribed code
violates the property as a user would expect it (this is a finding about the
code); `..._partial` marks a theorem covering only a part of the property, with
the missing part named in the note of `MANIFEST.json`.

## Plan per property

| Id | Model | Proof method |
|----|-------|--------------|
| C01 | `Field::skip`, the `Skip` transform over rose trees, the static part in `Conditions` | induction on trees; truth table; refutation for both directives |
| C02 | `Synth::{synthesize,iter,iter_inner,node_nullable_guard}` with a store | induction on fuel-free recursion over value and plan; refutations for list types |
| C03 | the same | the same |
| C04 | executor as a set of tasks whose completions are interleaved arbitrarily | confluence: small-step semantics, store is a function of the plan |
| C05 | `ConstValueExec::execute`, `map_ref`, `for_each` | induction on nested lists with a counting invariant |
| C06 | IR syntax, `update_ir`, `update_field`, `IR::eval` with a trace of IO calls | structural induction over IR, relation between evaluations |
| C07 | `JITExecutor` as a state machine (plan cache, constant cache) | history invariant; refutations |
| C08 | the same | history invariant; refutation (operation name not in key) |
| C09 | batch members sharing one dedupe key | refutation and conditional theorem |
| C10, C11 | `DataLoader` as a state machine with calls, timers and completions | invariant by induction over events |
| C12 | `Dedupe` as a state machine with arrivals, completion, cancellation | invariant by induction over events |
| C13 | `HttpDataLoader::load` over abstract URLs, JSON responses | refinement to per-key filter; refutations |
| C14 | `gather_path_matches`, `group_by_key` | induction on path and value |
| C15 | `Verification::{and,or}`, `AuthVerifier` | algebra of a lattice, induction on trees |
| C16 | `validate_iss`, `validate_aud`, provider config | case analysis over set predicates |
| C17 | nom parser transcribed on character lists, renderers | parser correctness by induction |
| C18 | `Path::parse`/`matches`, endpoint set | induction on segments; refutation for short paths |
| C19 | URI rewriting in `handle_rest_apis`, query params | refutation + matcher correctness |
| C20 | `MergeRight` instances | algebraic laws by induction |
| C21, C22 | `Contravariant::shrink`, `Covariant::expand` on types, fields, enums | semantic inclusion of value sets |
| C23 | worklist of `get_all_used_type_names` | worklist invariant = reachability |
| C24 | memoised DFS of `PathTracker` | invariant over cache + visited set |
| C25 | cache-control combinators; updates as interleaved read/write steps | monoid laws, invariant; refutation for the race |
| C26 | `JsonSchema::{validate,is_a}` | induction on schema |
| C27 | `Type` and its conversions | structural induction |
| C28 | `TypeFieldDiscriminator`, `KeyedDiscriminator` | induction on values |
| C29 | CORS validation and header computation | case analysis |
| C30 | `QueryEncoder` | induction on lists |
| C31 | the three `cache_key`s with the hash as an injective oracle | injectivity for HTTP, refutations for GraphQL/gRPC |
| C32 | `IR::eval` | equational theorems by structural induction |
| C33 | `Cache::wrap`, `IR::modify`, cache state threading | structural induction with a cache-consistency invariant |
| C34 | `InMemoryCache` with a clock | induction over histories |
| C35 | `walk_union` | reachability; refutation for diamonds |
| C36 | `AmbiguousType::transform` | fixpoint invariant |
| C37 | `RenameTypes` | map algebra; refutation for swaps |
| C38 | `recursive_parse_arg` | induction on fuel/values |
| C39 | `create_allowed_headers` | induction on header lists |
| C40 | batch building and splitting | list index lemmas; refutation for errors swallowed |
| C41 | data-loader index assignment over nested IR | induction with an accumulator invariant |
| C42 | body concatenation | induction |
| C43 | `Builder::iter` | induction on the query tree |
| C44 | transforms as functions into a result type | monoid laws |
| C45 | `get_path` | induction on path |
| C46 | the path kept while the response is put together and its pushes and pops | induction on the response tree; refutation for the early return |
| C47 | `escape_default`, the rendered body, a JSON string reader in the specification | reading back what was escaped; refutation for apostrophes |
| C48 | the planned selection of every GraphQL call (`transform/graphql.rs`, its variables, its text in the body); for calls without one `from_jit_field`, `format_selection_set`, `create_related_fields` | the text is built of literals and variables that the template reader and JSON leave alone, by induction on selections; induction on the type graph |
| C49 | `Contravariant`/`Covariant`/`merge_right` folded over several configurations | induction over the list of files |
| C50 | `config_document`, `from_document`, directive codecs as parameters with the law decode(encode x) = x | computation per directive list, induction over fields, types and containers; exact description of what comes back |
| C51 | `interfaces_types_map` with fuel | membership invariant of the memo table; termination by distinct paths, non-termination by accessibility |
| C52 | `path_string`, `path_graphql`, `path_value`, `path_arg` over a request context | relation `stands_for` (CtxSpec.v) between expressions and texts; soundness and completeness by induction over paths |
| C53 | `to_request`, `grpc_request`, `gql_request` | case analysis against rendering as a relation |
| C54 | the plan transformations `check_dedupe`, `check_const`, `check_cache`, `check_protected` and the executor | inductive descriptions of the calls an expression makes (ShareSpec.v); induction on expressions and on executions |
| C55 | headers kept from upstream answers, configured headers, the headers sent | the values of each header of the answer as a function of the answers, by induction over them; refutations for cookies |
| C56 | `request_text`: the JSON text built for application/graphql | JSON strings as a relation (RequestSpec.v), induction on the text; refutation for backslashes |
| C57 | `route` | case analysis, one equivalence for each handler; refutation for routes below /api |
| C58 | `validate_scalar`, `validate_enum_value`, `alias_map`, and the response of the plan model | integers and their texts as relations; induction on texts and values; the response relation of C03 |
| C59 | `ConfigReader::ext_links`, `read_all`, `resolve_path`, `Extensions`; reading, parsing and merging are parameters | links as a list, what each stands for as a relation; induction on the links read so far |
| C60 | `ProtoReader::read`, `resolve_dependencies`, `read_proto`, `resolve_path` | reachability as a relation; invariant of the queue, a measure for the end |
| C61 | `Cached::read` | histories of reads; induction on the history |
| C62 | `to_schema` and the checks it runs, with the set of visited types | reachability without resolvers; the traversal finds exactly the dead ends, induction on fuel and on the measure of unvisited types |
| C63 | the nine steps of `to_field_definition`, delivery of a field by the executor | case analysis of each step; the compilers of the resolver directives and the check of templates are parameters |
| C64 | the same with `update_protected` and the verifiers of AuthModel | the built resolver is compared with the one built without the mark |
| C65 | `update_resolver_from_path`, `process_path` | induction on the path against the relation "leads to" on types and on values |
| C66 | `KeysExtractor`, `Keys`, `Subgraph::transform`, template rendering of HTTP requests | key trees represent sets of paths (invariant through set/merge/combine); the printed key parses back to its maximal paths; non-interference of request building |
| C67 | `compile_call`, `DynamicValue::try_from`, evaluation of pipes | induction on the steps against a sequential semantics; induction on the stack for loops |
| C68 | `MustachePartsValidator`, `update_resolver` | acceptance as an equivalence by induction on paths and on merged resolvers; completeness of addresses by induction on the path against values of declared types |
| C69 | `compile_http`, `apply_select`, `validate_argument`, `to_mustache_headers` | acceptance as an equivalence; evaluation of the compiled resolver; induction on the selection |
| C70 | `TypeGenerator`, `NameGenerator`, `to_gql_type` | induction on the sample with a frame invariant on the types and numbers used so far; invariant of the merge over the list of objects |
| C71 | `HttpDirectiveGenerator`, `OperationTypeGenerator`, `detect_gql_data_type` | the two passes cut the path into pieces (induction on the text, then refinement of the pieces), decoding commutes with cutting at slashes, the template is one that parses and renders back (C17) |
| C72 | `UnionInputType` | invariant of the depth-first visit (a name visited and not on the stack is finished), then induction over finished names relating values of a type to values of its copies; all combinations by induction over fields and arguments |
| C73 | `is_introspection_query`, the order of steps in `ConstValueExecutor::execute`, `Response::merge_with`; the library's answer about the schema is arbitrary | induction over the members merged, and over the builder's loop for the names its fields take |
| C74 | the comparison of two types with its visited pairs and its kept results, the grouping, the merging of a group, the renaming, and the rounds | each round is a quotient of the configuration (`merged_by`), quotients compose, and the number of types falls; for leaves an invariant of the kept results |
| C75 | the dependency graph, the walk with its stack, and the filter | the walk computes the reachable names (invariant of stack and set; a measure for its end), reachable names are what can be met |
| C76 | `execute_with_worker` with a trace of events, `WorkerHooks`, and the conversions of requests and responses to and from the objects of a script; scripts, the upstream and the parsing of what precedes a query are arbitrary | induction over the redirects; the query is written and read again with the lemmas of C30, headers by the order of names |
| C77 | candidates with their frequencies and priorities, the choice in the order of names, and the renaming of C37; the singular and Pascal case are arbitrary functions | frequencies equal the number of uses by induction over the fields; an invariant of the names given so far; C37 |
| C78 | the search for a path with the set of visited types, the marks and the added fields, read by the blueprint model of C65 | the search equals an inductive path without bound on its length (visited types are counted); fields are followed through C65 |
| C79 | descriptors, the names, the table of types with its overwriting, oneofs, methods and comments; camel case of another crate and the text of an @grpc are parameters | induction over nested messages with a relation between tables that keeps what was there when names are apart; names are taken apart at their double underscores |
| C80 | the pool of descriptors, the schemas of messages and of types with a bound on the recursion, the comparison, the lookup of methods and the address; camel case and JSON names are parameters | answers have the schema of their message and values with the schema of a type fit it, by induction; the comparison is sound (C26); for generated configurations by induction on the bound, from what C79 says of them |
| C81 | the conversion of a directive and of a configuration, both compilers as far as requests are concerned; texts of directives, of JSON and of header names are parameters | the two requests are compared field by field, headers as the values under each name; with C79 for generated configurations |
| C82 | the federation step on definitions, on top of the models of the subgraph transformation (C66), of field definitions (C62-C65) and of evaluation (C32); compilers of directives and the printer are parameters | from a written configuration to the answer: the table of entity resolvers is exactly the compiled type resolvers, evaluation by the rules of C32 |
| C83 | definitions of every kind on top of the model of fields (C62-C65), the removal of unused ones (C75), and what is told to async-graphql as data in a map by name | invariant of the map under registration; each definition related to its declaration by an inductive specification |
| C84 | the printer character by character; as specification a lexer and a recursive-descent reader of the GraphQL type system grammar, written independently of the printer | tokens of concatenated texts by a lemma on states of the lexer, then induction over lists and types that the reader inverts them |
| C85 | writing a configuration as a document (C50), printing it (C84) and reading the text with the reader of GraphQL of C84 | from C50 and C84: the document that is read is the one that was written up to the order of definitions and without null arguments, and reading documents does not depend on the order |
| C86 | the loop over sources, the configuration of one sample with its root renamed, headers, and merging into what is there | invariant over the sources: numbers of names only grow, so the types of one sample are never those of another; merging keeps what a source has (C13) |
| C87 | the loop over generated types with its retries and waits, the choice among suggestions, and renaming (C37); the service as any function of the number of the question and the question | induction over the types with the names used so far; the new names are fresh in the sense of C37 |
| C88 | the checks on links and on the exporter with traces, the regular expression as a recogniser; reading of URLs and headers is any function | lists by position and counting of filters; the recogniser by induction against a specification of words |
| C89 | errors as trees, the text as it is written piece by piece, with the panic of the bullet as no result; painting is any function | induction over the depth of the error, against a layout in lines; blocks of lines that begin with a bullet are told apart |
| C90 | errors with their conversions down to JSON, and a world of fetches in which requests share one evaluation and values are kept; the reading of an answer is any function | induction over the history with the invariant that the cache has the value of the first answer that was kept |
| C91 | a disk whose every visible state is recorded, with prompts and writes that come from lists; the texts, the reading and the writing of YAML are any functions | an invariant over all visible states, carried through the five steps |
| C92 | the models of C26, C80 and of dynamic values put together | induction over the depth and the type: the schema of a type accepts exactly its values; ranks of types for the end of the check |
| C93 | the model of C59 with files that are read from servers or from the machine | two runs with different files agree link by link |
| C94 | the command as a function to the list of what the outside sees; configurations that are generated are an oracle | induction over the inputs; the walk of a relative path by induction over both paths |
| C95 | the server as a function of the JSON text of requests, texts rendered by the model of C17, imports by that of C60 | the invariant of the queue of C60; two resolvers that agree on the names that occur |
| C96 | reading, the blueprint, the check of endpoints and the machine as functions | case analysis; references to graphs that C88 accepts can be split |
| C97 | the text as a string, white space of ASCII as in C26 | lines and paragraphs as relations; induction on paragraphs with what was printed last |
| C98 | handlers and upstreams as functions, the counter as the list of what is added | attributes characterised exactly; requests that differ in what is not named compared |
| C99 | arguments as a list of values, the order of operations as any permutation, matching as in C18 | induction on arguments with what was given; endpoints as a relation, invariance under permutations |
| C100 | the kept context as a state, the steps of requests in any order, the store of values as texts with an expiry | invariant over histories and schedules; the texts against what JSON can begin with; the word "false" as a relation |
| C101 | the expression for addresses as a function on texts, events as effects, the kept addresses as a state | greedy matching against a grammar of addresses; induction over histories |
| C102 | answers with the time at which they are there, extensions as functions around an answer, the two ways of execution | case analysis on the settings; the extensions of the settings reduced to the limit and a note |
| C103 | a disk as a function from paths to files, the environment as a function | induction over the paths against an inductive description of the warnings; lower case related to spelling letter by letter |

## Trusted base

* Coq 8.16.1's kernel (and `coqchk`).
* `Print Assumptions` stands under every property theorem. For every one of them it
  prints "Closed under the global context": no axiom of the standard library (or of
  anything else) is used, and no library besides the standard library is imported.
* The hand transcription from Rust to Gallina, definition by definition, with
  the simplifications stated in the comments of the `*Model.v` files.
* The specifications (`*Spec.v`) and the statements of the theorems.

### What is modelled

| Model file | Code |
|------------|------|
| JsonModel | `async_graphql_value::ConstValue` as a tree, `json/borrow`, `json/graphql`, `group_by`, `get_path`, `jit/exec.rs` list handling |
| TypeModel | `core/mod.rs::Type` and its conversions |
| MustacheModel | `core/mustache/{model,parse,eval}.rs` |
| AuthModel | `http/request_context` credentials, `core/auth/{verification,verify,basic,jwt,error}` |
| CtxModel, IrModel | `ir/{eval_context,eval,model}.rs`, `core/path.rs`, `blueprint/dynamic_value.rs`, `jit/transform/{auth_planner,check_const,check_protected,check_cache,check_dedupe}.rs` |
| DiscModel | `ir/discriminator.rs`, `ir/discriminator/*` |
| PlanModel, OpModel, ExecModel | `jit/{model,exec,exec_const,synth,store,graphql_executor}.rs`, `jit/transform/skip.rs`, `data_loader/dedupe.rs` as used by the executor |
| BuilderModel, InputModel | `jit/builder.rs`, `blueprint/index.rs`, `jit/transform/input_resolver.rs` |
| AnswerModel | `async_graphql_hyper.rs`, `jit/response.rs`, cache policy of `http/request_context.rs` |
| DlModel, DlIdModel, DedupeModel, TtlModel | `core/data_loader/*`, `app_context.rs`, routing of `ir/eval_io.rs`/`eval_http.rs`, `core/cache.rs` |
| HttpBatchModel, SplitModel | `http/data_loader*.rs`, `http/transformations/*`, `config/group_by.rs`, `graphql/data_loader.rs`, `grpc/data_loader.rs` |
| HeadersModel | `http/request_handler.rs` headers and CORS, `blueprint/cors.rs` |
| UrlModel, RequestModel, GqlModel | `http/{query_encoder,request_template}.rs`, `graphql/request_template.rs`, `grpc/request_template.rs`, cache keys, related fields of `blueprint/operators/graphql.rs` |
| UpstreamModel | `jit/transform/graphql.rs`, the selections of `graphql/request_template.rs` and `jit/transform/input_resolver.rs`, the printed directives of `document.rs` |
| RespModel | the headers of `http/request_context.rs`, `update_response_headers`, the application/graphql body and the routes of `http/request_handler.rs`, `handle_response_headers` and `handle_experimental_headers` of `blueprint/server.rs` |
| ScalarModel | `scalar.rs`, `validate_enum_value` of `blueprint/index.rs`, `blueprint/operators/enum_alias.rs`; the formats of email addresses, phone numbers, dates and URLs are parameters |
| LinksModel | `config/reader.rs` (without telemetry and the decoding of PEM files), `Extensions` of `config_module.rs`, `proto_reader/reader.rs` (without `fetch`), `Cached::read` of `resource_reader.rs`; files, URLs, parsers, merging of configurations and reflection are parameters; paths are texts, `Path::parent` and `Path::join` are modelled for Unix paths that name files |
| FieldModel | `blueprint/schema.rs`, `blueprint/definitions.rs` (`to_field_definition`, `to_fields`, `process_path`, `update_resolver_from_path`, without inputs and descriptions), `operators/{resolver,modify,protected,enum_alias}.rs`, `union_resolver.rs`, `interface_resolver.rs`, `auth.rs`; the compilers of `@http`, `@grpc`, `@graphQL`, `@expr`, `@js` and `validate_field`'s check of templates are parameters |
| EntityModel | `config/transformer/subgraph.rs`; the directive's text and `serde_json`'s text of a body are parameters |
| CallModel | `blueprint/operators/call.rs`, `TryFrom<&Value>` of `blueprint/dynamic_value.rs`, the dispatch of `operators/resolver.rs` |
| CheckModel | `blueprint/mustache.rs`, `blueprint/template_validation/mod.rs`, `blueprint/operators/{http,select}.rs`, `helpers/headers.rs`; header names and `serde_json`'s text of a body are parameters; worker hooks are left out |
| GenModel | `generator/json/types_generator.rs`, `helpers/gql_type.rs`, `generator/mod.rs` (names), the root type of `operation_generator.rs`; the counter does not overflow |
| OpGenModel | `generator/json/http_directive_generator.rs`, `operation_generator.rs`, `detect_gql_data_type`; URLs are given in parts (base, path, decoded query; no fragment), `parse::<f64>`, UTF-8 validity, camel case and the printing of the directive are parameters |
| UInModel | `config/transformer/union_input_type.rs`, all of it; the traces are left out |
| IntroModel | `jit/builder.rs` 366-373, `jit/exec_const.rs` 37-108 (the operation's own answer is a parameter), `jit/response.rs` 12-91 without the cache control |
| TmModel | `config/transformer/merge_types/*.rs`; a threshold is the answer to whether a ratio of counts reaches it, so the rounding of 32-bit floats is left out; the walks of C36 and C51 give the kinds of types |
| RestModel | `core/rest/*` and `handle_rest_apis` |
| ConfigModel, MergeModel, FedModel | `config/*` data types, `merge_right.rs`, `config/config_module/merge.rs` |
| GraphModel, AmbModel, RenameModel | `config/npo/*`, `config/transformer/{tree_shake,nested_unions,ambiguous_type,rename_types}.rs` |
| DocModel | `config/{into_document,from_document,directive}.rs`, `core/directive.rs`, `interfaces_types_map` of `config/config.rs`, `tailcall-macros/src/resolver.rs` |
| SchemaModel | `json/json_schema.rs` |
| ComposeModel | `core/transform.rs`, `core/try_fold.rs` |
| ShrinkModel | `blueprint/compress.rs`; a field is its name, type and arguments |
| HookModel | `worker_hooks.rs`, `worker/worker.rs`, `cli/javascript/{codec,runtime,mod}.rs` (the calls and conversions, not the engine), `execute_with_worker` of `ir/eval_http.rs` |
| ImpModel | `config/transformer/improve_type_names.rs` |
| FlatModel | `config/transformer/flatten_single_field.rs` |
| PgModel | `generator/from_proto.rs`, `generator/graphql_type.rs`, `generator/proto/*.rs`, `GrpcMethod::try_from` of `blueprint/operators/grpc.rs`; not `AmbiguousType` (C36) and `TreeShake` (C23), which run afterwards |
| GsModel | `compile_grpc` and its parts in `blueprint/operators/grpc.rs`, schemas of messages in `json/json_schema.rs`, `to_json_schema` of `blueprint/from_config.rs`, lookup in `grpc/protobuf.rs`; not templates, hooks and `select` |
| CnModel | `generator/proto/connect_rpc.rs`; templates of `compile_grpc` in `blueprint/operators/grpc.rs`; not hooks |
| FdModel | `blueprint/operators/apollo_federation.rs` in full; the printer of schemas is a parameter |
| SvModel | `blueprint/definitions.rs` 17-71 and 244-276 and 557-606, `blueprint/into_schema.rs` (the execution of fields by async-graphql left out), the schema steps of `blueprint/from_config.rs`; directives left out, defaults as texts, async-graphql's `SchemaBuilder` as a map by name |
| PrModel | `src/core/document.rs` 1-329 and 373-455; values of directives and defaults as their texts (`Display` of async-graphql-value), definitions of directives (331-370) and the documentation of enum values left out, graphemes as single bytes |
| SdlModel | `src/core/config/config.rs` 395-397 and 419-425; async-graphql-parser (external) as the reader of PrSpec.v, values of arguments as their tokens |
| MgModel | `src/core/generator/generator.rs` 23-157, `from_json.rs` 88-137, `json/schema_generator.rs` 28-49; files and proto files as what reading them comes to; transformers as functions |
| NmModel | `src/cli/llm/infer_type_name.rs` 47-171, `error.rs`, `wizard.rs` 44-55; the prompt is not modelled, nor the overflow of waits |
| LkModel | `src/core/blueprint/links.rs` 12-60, `telemetry.rs` 34-105; other settings of Apollo are one text |
| ErModel | `src/core/errata.rs` 12-136, 153-176, 196-226 and `src/core/blueprint/error.rs` 197-214; characters are bytes, painting is a parameter |
| UgModel | `src/core/ir/eval_http.rs` 267-285, `eval_io.rs` 17-42, `eval.rs` 47-65, `src/core/ir/error.rs` 11-94, `src/core/jit/error.rs` 43-70, `graphql_error.rs` 9-105, `model.rs` 493-579, `exec.rs` 44-52; cached values do not expire |
| TiModel | `src/cli/tc/init.rs` 14-134, `src/cli/runtime/mod.rs` 88-129, `src/cli/runtime/file.rs` 14-25, `src/core/merge_right.rs` 131-176; all keys of mappings are texts, the names of files are as given, nobody else writes to the folder |
| ExModel | `src/core/blueprint/operators/expr.rs` 9-60; the messages of failed checks are left out |
| ScModel | `src/core/http/showcase.rs` 17-70, `src/core/resource_reader.rs` 138-168, `src/core/config/reader_context.rs` 25-38; the cache of files, panics in linked configurations and the imports of proto files are left out |
| TgModel | `src/cli/generator/generator.rs` 36-212, `src/cli/generator/config.rs` 19-272, `src/cli/generator/source.rs` 10-31, `src/core/config/source.rs` 38-72; what is generated from the samples and the suggestion of names are oracles, errors have no texts, `pathdiff` is written after its source |
| RfModel | `src/core/proto_reader/fetch.rs` 37-192, `src/core/proto_reader/reader.rs` 35-64, 162-173; the URL, the headers, the encoding of messages and panics of templates are left out |
| BtModel | `src/cli/tc/check.rs` 17-43, `src/cli/tc/start.rs` 8-19, `src/cli/server/http_server.rs` 34-60, `src/cli/server/server_config.rs` 19-68, `src/cli/server/http_1.rs` 11-54, `src/cli/server/http_2.rs` 17-67; logs, update checks and the loop that serves are left out |
| PsModel | `src/core/print_schema.rs` 6-37; the text that async-graphql gives is the argument, white space is that of ASCII |
| MtModel | `src/core/http/telemetry.rs` 30-72, `src/core/http/request_handler.rs` 85-90, 249-285, 288-376 (routing as in RespModel), `src/cli/runtime/http.rs` 31-71, 155-195; spans, logs and exporters are left out |
| RdModel | `src/core/rest/directive.rs` 15-83, `src/core/rest/endpoint.rs` 41-121, `src/core/rest/endpoint_set.rs` 60-88, `src/core/rest/operation.rs` 22-52 (of the check only whether required variables are given); values that GraphQL and JSON escape differently are left out |
| HoModel | `tailcall-aws-lambda/src/http.rs` 43-95, `tailcall-cloudflare/src/http.rs` 52-97, `tailcall-cloudflare/src/handle.rs` 44-80, `tailcall-cloudflare/src/cache.rs` 33-65, `src/core/ir/eval.rs` 47-65, `tailcall-tracker/src/can_track.rs`; what the hosts' crates do is taken from their documentation: the text of GraphQL values, that the store reads JSON and counts seconds |
| TkModel | `tailcall-tracker/src/dispatch.rs` 58-154, 208-217, `tailcall-tracker/src/event.rs` 7-56, `src/cli/tc/run.rs` 14-33; of an event the fields that differ between events; requests to the collectors only as told or failed; a `HashSet` as a list (the theorems ask only what is in it) |
| LmModel | `src/core/blueprint/timeout.rs` 22-47, `src/core/blueprint/blueprint.rs` 185-246, `src/core/jit/exec_const.rs` 36-103 (which way of execution), `src/core/http/request_handler.rs` 266-271, `src/core/config/directives/server.rs` 180-217; validation and extensions of async-graphql as their documentation says |
| WrModel | `src/cli/tc/validate_rc.rs` 6-49, `src/core/tracing.rs` 78-112, `tailcall-aws-lambda/src/main.rs` 21-23; `Path::parent`, `Path::join` and the texts of this version are parameters |

Outside calls (upstream I/O, clocks, hash functions, JSON text, float parsing, URL
normalisation, hash iteration order, JWT and bcrypt checks) are parameters of the
definitions, and the theorems quantify over them. Concurrency is modelled as transition
systems whose labels are the atomic accesses to shared state; theorems quantify over all
label sequences.

### What is not modelled

The async runtime and its fairness, sockets, TLS, hyper, reqwest, the HTTP cache,
moka, the GraphQL SDL parser and printer, serde, protobuf decoding, OpenTelemetry, the
JavaScript worker, WASM/Cloudflare/AWS back-ends, the command line, the configuration
generators and the LLM calls. Rust's panics are explicit outcomes where the code can
reach them; stack exhaustion and memory are not modelled. Machine integers are
unbounded integers except where the code narrows them (`as i32`, `parse::<usize>`,
`parse::<i64>`).

## Findings

Each `_refuted` theorem exhibits a concrete input on which the transcribed code departs
from the property. They are stated against the model; none was reproduced by running
the program.

* **C01** `@skip(if: $v)` together with an `@include` that is false, or variable: the
  field is decided by one directive only (`Field::skip`).
* **C02** an aliased field without resolver above a field with one: null reaches a
  non-null position, or the index into the store panics; nullability of list types is
  that of the list, items are not checked separately.
* **C07** the response of an operation that mixes guarded and unguarded constant fields
  is cached and served without the guard; variables and the operation name are not part
  of the key.
* **C08** the plan cache ignores the operation name: another operation of the same
  document runs; an unknown operation name succeeds once the plan is cached.
* **C09** the members of one batch share an operation id, so one can be given the
  other's data, which may be cached for everybody.
* **C11** a batch can exceed `maxSize` when one call brings several keys.
* **C13** a batch uses the headers and other parameters of its first caller; without
  `batchKey`, one failing call fails all.
* **C14** numeric ids beyond 2^53 are grouped by their float text and collide.
* **C15** a conjunction reports its first failure, not the most severe.
* **C17** a lone quote inside an expression is read differently from what is written.
* **C18** requests shorter than the declared path match with parameters unset; `/api`
  is removed everywhere in the path; `/apiary` is answered.
* **C19** the server drops the query string before matching; a renamed parameter is
  rejected or typed by another variable.
* **C20** a batch delay or route that the later file does not mention is reset to its
  default; merging JSON values is not associative.
* **C21** input types without a common field become a scalar; enum values whose aliases
  differ are dropped. **C22** types served only through an interface lose fields.
* **C23** types reachable from the subscription root, or only as implementers of a used
  interface, are removed.
* **C25** ages above 2^31 wrap and lose `no-cache`; `no-store` is ignored; answers taken
  over from caches are not counted; the minimum is not updated atomically.
* **C26** `Any` fields may be missing from the value while `is_a` demands them; enums are
  not validated.
* **C28** a `__typename` sent by the upstream is taken without a check.
* **C29** a wildcard among several origins or headers passes next to credentials; a
  static allow-origin header survives for foreign origins.
* **C30** absent, null and empty values send a bare key; `&` and `?` in arguments add
  parameters; `+` and `%` arrive changed; the configured query is decoded and not
  encoded again; only the first part of a value template is used.
* **C31** GraphQL cache keys leave out URL and headers, gRPC keys the headers; the body
  encoding is in no key.
* **C35** a diamond of unions is rejected as recursive.
* **C36** an enum argument of an ambiguous type is renamed to an enum that does not
  exist; an existing `XInput` is overwritten; implementers of an interface stay both.
* **C37** a chain of renamings maps union members twice; a clash drops a type; with one
  root for query and mutation only the query is renamed; the subscription root is not.
* **C38** null defaults of non-null types pass; items of lists are checked against the
  list type; a default that contains itself never ends; an omitted optional variable
  fails the request.
* **C39** of a repeated header only the last value is forwarded.
* **C40** a batch carries the first caller's headers; of several gRPC records with one id
  only the first is handed out.
* **C41** calls in fields of interface types get no data loader.
* **C43** fields that must be merged are dropped; an excluded field hides a later one
  with its name; `@skip` on fragments is ignored; a fragment may repeat a name; cyclic
  fragments recurse for ever.
* **C44** the errors reported by a fold depend on its bracketing.
* **C46** an error after an early return carries the path of another field.
* **C47** an apostrophe makes the upstream body invalid JSON.
* **C48** planned selections: a variable in an argument is sent as its name, undeclared;
  aliases of one field with different arguments collide; fields of union members lose
  their fragments; fields with a cached or path-selected resolver, and fields excluded by
  a variable, are asked for as well; braces in a client's string are read as a template;
  a string variable in a directive breaks the JSON body; one variable whose name starts
  with an underscore disables all; variables inside lists stay names; calls below a merge
  get no selection. Calls without a planned selection: aliased fields are not asked for;
  of two fields of one type only the first gets its selection; the fields of a union
  member are not asked for when an earlier member holds that type.
* **C49** settings of later files are dropped; operations of a file with another root
  name are unreachable; files that declare the same custom scalar cannot be merged.
* **C50** writing a configuration loses the telemetry, discriminators, `@modify` of
  arguments, arguments of interface fields, documentation of unions, and everything but
  the fields, documentation and protection of a type an argument uses; a second round
  loses more.
* **C51** a type that implements itself, directly or through others, is read without an
  error and then overflows the stack.

* **C52** an enumeration value in arguments or values that were replaced on the way
  (`@call`, piped expressions) renders as nothing.
* **C53** a content type the client may send replaces that of the upstream call; header
  templates for GraphQL upstreams are rendered as GraphQL literals, so values arrive in
  quotes.
* **C54** only the resolvers of the root fields are looked at, and no call below an
  enumeration mapping is: operations with calls that must not be shared are shared.
* **C55** the cookies of several upstream answers are written into one `Set-Cookie` header,
  where the second is an attribute of the first; of several cookies of one answer only the
  first is kept; an answer shared by several calls repeats its cookie; a configured cookie is
  replaced; the value of an experimental header depends on which answer comes last.
* **C56** an operation with a backslash is put into the JSON text without quotes; control
  characters are escaped the Rust way; a content type with a parameter is not recognised.
* **C57** routes starting with `/api` can be configured for GraphQL, status and metrics and
  are never reached.
* **C58** values of the built-in scalars are not checked, so a whole upstream object can be
  the answer of an `Int` field; lists of custom scalars are always rejected; 64-bit integers
  sent as numbers are rejected; aliases of enum values reach the client where the field has
  no resolver; a null in a list of enum values is an error; a shared alias is not reported.
* **C59** the links of a linked configuration are never followed. Of several `Key`, `Script` or
  `Operation` links in one file only the last counts, while keys and operations linked from
  several files are all kept. Proto files are stored by the text of their import, so two linked
  proto files that import their own `common.proto` share the later one.
* **C60** when an import leads back to the linked file, that file is returned twice, once under
  its path and once under the text of the import.
* **C61** the cache of the resource reader is filled under the path and looked up under the hash
  of the path, so it is never hit: every read goes to the disk or the network again.
* **C62** a field of a declared scalar is accepted without a resolver anywhere above it; of
  several root fields of the same type without resolvers only the first is reported, because the
  visited set is shared; a missing query root is reported twice.
* **C63** a field of a declared scalar without a resolver gives `{}` instead of the upstream's
  value (two of the project's own tests are skipped for this); an object, list or null whose type
  has only resolved fields gives one `{}`, and so does a renamed one.
* **C64** `@addField` through a protected field or type gives its data to everyone; ids on the type
  of the value are ignored and all providers demanded; a union's protected members do not protect
  the field that gives the union; of two providers with one id only the last is asked; providers
  without an id cannot be named.
* **C65** a name of the enclosing type shadows the next name of the path (wrong type); paths that
  lead through scalars or by names of the enclosing type are accepted and give null; a path through
  a list is typed as a list and gives null; a list of objects is typed as a list of lists; from a
  protected source without resolver everyone gets null; from a renamed source the added field takes
  the renamed name; paths to enums are refused; an empty path panics.
* **C66** a resolver that uses the whole representation gets no key; one that uses `a` and `a.b` gets
  a key with `a.b` only, and representations with the same key lead to different requests; of a
  `@call` only the first step is looked at; fields that do not exist are refused in addresses and
  query parameters only, a header (or body) puts them into the key.
* **C67** the defaults of a called field's arguments are not used; the fields of a query type not
  called `Query` cannot be called; a field that calls itself exhausts the stack at start-up.
* **C68** addresses of accepted fields can still have holes: paths through a list or through a field
  with a resolver of its own, anything below an argument, null for an argument with a default. Headers
  and bodies of `@http` are not checked, and with `select` nothing is. An expression the parser cannot
  read (`{{.headers.x-user}}`) turns the whole address into fixed text, braces included. Enumeration
  values are refused although they always have a text.
* **C69** a selected null becomes an empty text, a selected text that is JSON becomes that JSON, and of
  two expressions in one text of `select` only the first looks at the answer. In queries a path past a
  scalar argument is accepted and an argument of a declared scalar refused. A batched GET need not name
  the parent in its query; an argument called `value` is taken for the parent.
* **C70** samples that do not fit their own schema: numbers with a fraction or of more than 32 bits
  (`Int`), lists of several kinds of items, lists in lists (a level is lost), members that only later
  items have below a list's item, a scalar after objects. A type that is already called like a
  generated one is overwritten.
* **C71** a UUID whose first group has only digits is cut after it and typed `Int`; numbers of more
  than 32 bits are typed `Int`; `%2F` in a path becomes a slash; `%7B%7B…%7D%7D` in a path becomes an
  expression of the configuration (also `env`); a path that is not UTF-8 when decoded panics; two
  keys with one camel case share an argument; keys that are no names (`filter[name]`) are sent with
  the expression as text; a POST sample that is no mutation loses its method and body; the argument
  for a body that is a list takes no list.
* **C72** a type that contains itself and a union keeps the union below its copies; a list of a union
  becomes lists of one member each, so mixed lists are no longer accepted; an existing field called as
  a variant (`findVar0`) takes the variant's place; an existing type called as a copy (`Page__after0`)
  is replaced by the copy; a field with a union without members goes away.
* **C73** a question about the schema inside a fragment is dropped without an error; an operation whose
  own answer is null, because a required field failed, is answered with the members about the schema;
  `query($n:String!){hello __type(name:$n){name}}`, with a constant field `hello`, is kept as constant
  under its text, and the next to ask with another `$n` is told of the first type.
* **C74** at threshold 1.0 `A{p:U q:U}` and `B{p:V q:V}` are merged even if `U` and `V` have no field in
  common, because to meet the pair `U`, `V` again is to find `A` and `B` similar; `Query.a.p.x` is then gone.
  `interface Node{id}` and `interface Entity implements Node{id}` are merged into an interface that
  implements itself, and the next walk through the interfaces never ends. Alike `Query` and `Mutation` are
  merged and the schema names neither. A field protected or required in one type loses that to the other's
  field. A type already called `GEN__M1` is replaced. The resolvers of merged types are lost.
* **C75** the arguments of an interface's fields are not followed, nor the interfaces it implements: an
  interface no object implements names an input type that is gone, and `interface Entity implements Node`
  loses `Node` if objects list only `Entity`. Values of enums count as names of types, so an unused
  `type User` stays if some enum has a value `User`.
* **C76** an onRequest script that returns its argument changes the call: names and values are shown decoded
  and put together again without escapes, so `q=me%26admin%3D1` becomes the two parameters `q=me` and
  `admin=1`, `%2B` becomes a space and `%23` ends the query; of repeated parameters and headers the last is
  left; user and password of the URL and the value for batching are lost. A script that throws is passed by
  and the unchanged request is sent. After n redirects the response goes through onResponseBody n+1 times; a
  script that redirects for ever is asked for ever. A response without body from a script is an error.
* **C77** names are only kept apart from names of types: a type used by a field `date` is called `Date`, and
  fields of the scalar `Date` then are of that type; an enum may get the name of another enum that is to be
  renamed in turn, so that one of them is lost and a field is left with a type that does not exist. A field of
  an unknown type makes the whole step fail. A type whose name already is that of its fields gets the second
  best name, and the first again when the step is repeated.
* **C78** a path that ends in an enum, or passes a field with a resolver, is refused when the flattened
  configuration is read, although the configuration was fine before; through a list the new field gives null
  whatever the list holds; arguments of fields on the way are lost; a second run adds the same fields again, so
  that fields are defined twice. Fields that types on the way get by `@addField` are not seen.
* **C79** two messages may get one name (`A_.B` and `A._B`; a nested `Interface` or `Var0` beside a oneof), and then
  the type of one is lost without an error; the comment of a value of an enum becomes part of its name (until the configuration is written as a GraphQL document); a file
  without comments gets those of the file before it; a message with nothing but a oneof gives a union member
  without fields; a service without a package gives an `@grpc` whose method is refused; `fixed64` becomes
  `Int64`, which refuses its upper half, and `fixed32` becomes `Int`.
* **C80** a message that contains itself makes the check recur without end (also the types generated from it);
  64 bit integers pass for `Int` though JSON has them as texts; a required field of any scalar but `Int`, `String`,
  `Boolean` is accepted for an optional field of any kind; fields with a `json_name` of their own are looked for
  under another name; what is generated for a message without fields is refused; with a batch key the comparison is
  the wrong way round (a type may ask for more than the message has and must not ask for less), a key of one name
  is never accepted and the last name of a key is not looked at.
* **C81** a slash at the end of the server's address, which makes no difference to gRPC, is kept and doubled; a
  batch key is kept but a batch is refused unless exactly one text of the message is a template.
* **C82** with federation on, a query type with a field that `@modify` renames or `@addField` adds is refused
  at start-up ("Cannot find field ... in the type"); on a query type that is `@protected` as a whole, `_entities` and
  `_service` lose their guard and answer anyone.
* **C83** a field that `@modify` renames to the name of another field of the type is accepted by the blueprint and both are
  registered (async-graphql asserts that the names differ); a built-in scalar such as `Email` that is the type of arguments only is never
  registered (async-graphql refuses unknown types); interfaces are registered without documentation, without the arguments of their fields and
  without the interfaces they implement; documentation of arguments and unions is dropped; `@modify` on arguments is ignored; of a type
  and an enum with one name only the enum is served.
* **C84** an input field that has both a default and a directive (`@modify`, `@omit`, ...) is printed with the directive before the
  default, which GraphQL does not allow: the printed configuration cannot be read again; a schema with neither queries nor mutations is printed as nothing, with
  its `@server`, `@upstream` and `@link` settings; documentation of several lines comes back changed (indented by two at types and fields, run together
  at scalars and inputs) and documentation with three quotes makes the text unreadable; lines of more than 80 characters are broken; the documentation and directives of
  interfaces and arguments, the documentation of unions and the directives of scalars are not printed; types without fields, members or values are
  printed with empty brackets, which GraphQL does not allow.
* **C85** a configuration with a field of an input that has a default and a directive is written as a text that cannot be read; the
  documentation of interfaces and arguments is lost in the text, although the document has it; where there is neither a query nor a mutation, the settings of
  server, upstream and links are lost.
* **C86** a configuration that was generated before and is given again as a source has types with the numbered names that are made anew, and its types are mixed with
  those of the samples: answers of samples are no longer described. A file that comes after the samples and names another query root hides the fields of all samples.
* **C87** suggestions are compared with the names of types only: the name of an enum or of a built-in scalar is accepted, so two definitions share a name or a text
  becomes an object. The names in use are not part of the question. `delay *= min(delay * 2, 60)` multiplies instead of limiting: the waits are 3 s, 18 s, 648 s, 10.8 hours, 27 days and so on.
  Errors other than those of the service are retried at once and for ever.
* **C88** links: two scripts are told only if no link is faulty by itself, and two keys only if there are not two scripts; more than one certificate is fine. The headers of requests to be
  exported (`requestHeaders`) are dropped when there is no exporter.
* **C89** reports: an error whose cause has an empty message panics while it is reported (`bullet`). Descriptions of causes are lost when a `ValidationError<String>` is reported; of the sources of
  another error only the first is told; colour does not reach causes of causes; a message of several lines can look like causes.
* **C90** errors of GraphQL servers: their extensions are lost (`ServerError` has the general `extend`), as are all locations but the first; an error without location is told to be at 0:0. When a
  fetch is shared (also between clients, `AppContext::dedupe_handler`), only the request that runs it gets its errors: the others get null without any error. With `@cache` later answers are null
  without errors, too. An empty message of a validation of an answer panics.
* **C91** `tailcall init`: a `.graphqlrc.yml` that exists and cannot be read (permissions, not UTF-8) is overwritten unasked; running the command twice lists the two patterns twice; a `schema:` that
  names one text is lost; a user who declines to create the folder is not told so, the command goes on and fails at the first write; files are written in place, so that a crash leaves an empty
  or torn file where the user had one; the file is not flushed, so that tokio may lose an error of the last write.
* **C92** `@expr` with a constant: any value is accepted for an enum; null is accepted for `ID!`, `Float!` and every scalar but four, and 1.5 for `Int`; for a type that is reached from itself through fields
  without resolvers the check recurs without end, so that the configuration cannot be loaded (a stack overflow, as with `@grpc`); one template anywhere in a body switches off the check of all of it.
* **C93** showcase: a configuration that a client names may link to files of the machine (a link to `/etc/secret` as a script, certificate or key), which are then read; a URL with another scheme than http is read as a path
  on the machine; templates such as `{{.env.KEY}}` in the client's configuration are filled from the environment of the server; and `{{env}}` in any configuration file panics the reader (`tail[0]`).
* **C94** `tailcall gen`: the format of the output is looked at only after all requests (with their side effects, as mutations are also sent) and the suggestion of names were made, so that `out.json` fails at the very end; an absolute path of the output with `..` gives links to
  proto files that lead elsewhere (`/x/a/../b/out.graphql` and `/x/c/p.proto` give `../../../c/p.proto`).
* **C95** gRPC reflection: the JSON body of a request is a template filled from the environment of the process, and the names in it come from the server: a server whose file imports `{{.env.KEY}}` is sent the value of `KEY` (and `{{env}}` panics the reader, C93);
  of the files that a server sends along only the first is read, so that servers that rely on the others fail; a server whose files always import another one is asked without end.
* **C96** check and start: `@server(workers: 0)` passes `tailcall check`, but starting panics as the runtime wants at least one thread.
* **C97** the printed schema: a line of a description that begins with `directive @skip` or `directive @include` is left out of the printed schema, and so is the definition of a directive whose name begins like that.
* **C98** telemetry: the route of a GraphQL request is told as `/graphql` also if the configuration serves GraphQL elsewhere;
  the URL is taken out of errors only if the upstream answered with an error status: if it cannot be reached, clients are told the whole URL, with keys that the configuration puts into its query; metrics of upstream requests have the whole URL too.
* **C99** REST endpoints: the operations of a document come from a hash map, so that for two operations whose paths both fit a request (`/user/me` and `/user/$id`) the one that answers changes from start to start;
  the check of endpoints gives values to the variables of the path only, so that endpoints with required variables in the query or the body are refused; constants given in `query` or `body` are left out without an error.
* **C100** Hosts: on Lambda the URL is built from the parameter `proxy` alone, so that queries (of REST endpoints, `?config=`) and ports are lost, and a method that is not one of the nine makes the function panic;
  a worker goes on with the first version of a configuration until another one is asked for; it keeps cached values as GraphQL texts and reads them as JSON, so that every cached object or list of objects makes its field fail from the second request on;
  it takes `maxAge`, in milliseconds, for seconds; `TC_TRACKER=0`, `off` or an empty variable turn tracking on.
* **C101** Tracking: when Google Analytics cannot be reached, PostHog is not told (`?` in the loop over collectors);
  all arguments of the command line are told, passwords in addresses of configurations as well, and mail addresses are looked for in public keys and accounts of the user.
* **C102** Limits: `globalResponseTimeout`, `queryValidation` and `apolloTracing` are given to the schema of async-graphql, which executes REST endpoints and questions about the schema only;
  GraphQL operations are executed elsewhere, without limit, validation or trace.
* **C103** Warnings: the verb of the warning is chosen by the number of letters of the joined names, so one outdated file "are outdated" (C103_number_refuted);
  two configuration files of one directory give the same warning twice (C103_once_refuted).
  A `TAILCALL_LOG_LEVEL` that names no level, such as `off`, hides a valid `TC_LOG_LEVEL` and the default is used (C103_level_refuted).

## Testing the theorems

`seeded/LOG.jsonl` records, for each wrong program tried in a scratch copy, the edited
definition, the edit, the claim it breaks, the theorems that no longer hold, and what was
tightened. A theorem counts as failing when its proof, or the proof of a lemma it
depends on, no longer goes through.

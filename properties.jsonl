{"id": "C01", "title": "@skip/@include decide exactly which fields are answered", "statement": "For a field carrying @skip(if: $s) and/or @include(if: $i), the field (with its whole sub-selection) appears in the response and its resolver is run if and only if the skip condition is not true and the include condition is not false.", "quantifier": "every selection tree of any depth, every combination of directives and every assignment of variables", "why_tests_cant": "The tree and the variable assignment are unbounded; tests fix one tree and a few assignments and in particular never combine the two directives on one field.", "anchors": ["src/core/jit/model.rs: Field::skip", "src/core/jit/transform/skip.rs: Skip::transform, skip", "src/core/jit/builder.rs: Conditions, include"]}
{"id": "C02", "title": "Response nullability follows the schema", "statement": "If a query returns non-null data, then every answered field whose schema type is a non-null named type holds a non-null value at every depth and list index; a resolver returning null for such a field turns into an error instead of being silently passed to the client.", "quantifier": "every operation plan, every store of resolver results, every nesting of objects and lists", "why_tests_cant": "Resolver results are arbitrary JSON of unbounded depth; tests can only try particular documents.", "anchors": ["src/core/jit/synth/synth.rs: Synth::iter, iter_inner, node_nullable_guard"]}
{"id": "C03", "title": "The response contains exactly the selected fields, under their aliases, in query order", "statement": "Every object in the data of a response built from a plan carries exactly the output names of the selected, not skipped, type-applicable fields of that plan node, in selection order, and nothing of the upstream value that was not selected.", "quantifier": "every plan, every store, every object nested anywhere in the response", "why_tests_cant": "Needs induction over arbitrary plans and arbitrary upstream JSON; tests compare a handful of snapshots.", "anchors": ["src/core/jit/synth/synth.rs: Synth::synthesize, iter_inner", "src/core/jit/model.rs: OperationPlan::field_is_part_of_value"]}
{"id": "C04", "title": "Resolver results do not depend on completion order", "statement": "For every order in which the concurrently running sibling resolvers finish, the table of resolver results from which the response is built is the same.", "quantifier": "every plan with distinct field identifiers and every interleaving of resolver completions allowed by join_all", "why_tests_cant": "The number of interleavings is exponential and the scheduler picks one per run.", "anchors": ["src/core/jit/exec.rs: ExecutorInner::init, iter_field, execute", "src/core/jit/store.rs: Store::set"]}
{"id": "C05", "title": "A list parent yields one resolver call per applicable element and results keep the list shape", "statement": "When the parent value is a (nested) list, a field's resolver runs once for every non-list element the field applies to, and the collected result has the same list shape with each element's own result at that element's position, null where the field does not apply.", "quantifier": "every nested list value and every applicability predicate", "why_tests_cant": "Nested lists have unbounded depth and width; the zip between calls and positions is by counting, so a single mis-count shifts every later element.", "anchors": ["src/core/jit/exec_const.rs: ConstValueExec::execute", "src/core/json/json_like_list.rs: map_ref, for_each"]}
{"id": "C06", "title": "Hoisting authentication never lets a protected resolver run unauthenticated", "statement": "After planning, if the checks collected in front of the operation are not all satisfied, no resolver that was protected and hoisted is evaluated and the response carries only the error; and if they are all satisfied, evaluating the rewritten resolvers gives the same results as evaluating the original, protected ones.", "quantifier": "every plan, every nesting of resolver expressions, every set of auth providers and every request", "why_tests_cant": "Resolver expressions are unboundedly nested and the rewriting mutates them; a missed constructor drops a check only for particular shapes.", "anchors": ["src/core/jit/transform/auth_planner.rs: AuthPlanner::transform, update_field, update_ir", "src/core/jit/exec_const.rs: ConstValueExecutor::execute", "src/core/ir/eval.rs: IR::eval"]}
{"id": "C07", "title": "The constant-response cache never serves protected data to an unauthenticated caller", "statement": "For every history of requests, a response served from the cache of constant responses to a caller equals what a fresh execution for that same caller would have produced; in particular a caller that fails authentication never receives data of a protected field.", "quantifier": "every sequence of HTTP requests with arbitrary queries, variables, operation names and credentials", "why_tests_cant": "A property of histories: it needs a first authorised request followed by an unauthorised one and the right mix of fields; unit tests start from an empty cache.", "anchors": ["src/core/jit/graphql_executor.rs: JITExecutor::execute", "src/core/jit/transform/check_const.rs: is_const", "src/core/jit/transform/check_protected.rs: is_protected"]}
{"id": "C08", "title": "The operation-plan cache is transparent", "statement": "For every history of requests, the plan used to execute a request is the plan that would have been built from that request alone.", "quantifier": "every sequence of requests with arbitrary query text, operation name and variables", "why_tests_cant": "Depends on the history of earlier requests with equal query text.", "anchors": ["src/core/jit/graphql_executor.rs: JITExecutor::execute", "src/core/jit/request.rs: Request::create_plan", "src/core/async_graphql_hyper.rs: GraphQLRequest"]}
{"id": "C09", "title": "Each operation of a batch gets its own answer", "statement": "In a batched HTTP request, the i-th response is the answer to the i-th operation, whatever the other operations are and however their executions interleave.", "quantifier": "every batch and every interleaving of the executions of its members", "why_tests_cant": "Deduplication is keyed by request and only shows when several members are in flight at once.", "anchors": ["src/core/jit/graphql_executor.rs: JITExecutor::execute_batch, dedupe_and_exec", "src/core/async_graphql_hyper.rs: GraphQLRequestLike::operation_id", "src/core/http/request_handler.rs: execute_query"]}
{"id": "C10", "title": "Data loader: every caller gets exactly the values of its own keys", "statement": "For every sequence of load calls, timer expiries and batch completions, each call is answered exactly once, with the loader's value for each of its requested keys that the loader (or the cache) knows and with no key it did not ask for; if the batch fails, every caller of that batch gets the error.", "quantifier": "every history of load_many calls, timer firings, batch completions, cache settings", "why_tests_cant": "A property of concurrent histories of any length; tests run a couple of calls.", "anchors": ["src/core/data_loader/data_loader.rs: DataLoader::load_many, Requests::take, do_load", "src/core/data_loader/storage.rs"]}
{"id": "C11", "title": "Data loader: batching never drops or duplicates a pending key", "statement": "At every moment, each key requested by an unanswered call is either waiting in the pending set or contained in exactly the batch its call was put in; a batch handed to the loader contains exactly the keys the calls in it are missing, each once; a batch is started by the first pending call or when the size limit is reached, so no call waits without a timer or running batch.", "quantifier": "every reachable state of the loader", "why_tests_cant": "An invariant over all interleavings.", "anchors": ["src/core/data_loader/data_loader.rs: Requests::take, DataLoader::load_many"]}
{"id": "C12", "title": "In-flight deduplication: all joiners share one execution and nobody is lost on cancellation", "statement": "Among concurrent calls with equal key only one executes; all that joined receive its result; if the executing call is dropped before finishing, the waiting calls are released and one of them executes afresh; when results are persisted, later calls receive the stored result and when they are not, a later call executes again.", "quantifier": "every interleaving of arrivals, completions and cancellations, for every number of callers", "why_tests_cant": "Depends on schedule and on the crash point of the leader.", "anchors": ["src/core/data_loader/dedupe.rs: Dedupe::dedupe, step, Drop"]}
{"id": "C13", "title": "Batched upstream HTTP calls return to each caller what its own call would have returned", "statement": "When several GET calls are merged into one upstream call by a group-by key, each caller receives exactly the records of the merged response whose key equals the key of its own request.", "quantifier": "every set of pending requests and every upstream response body", "why_tests_cant": "Arbitrary URLs, headers and JSON bodies; tests use one key and small integers.", "anchors": ["src/core/http/data_loader.rs: HttpDataLoader::load", "src/core/json/mod.rs: gather_path_matches, group_by_key", "src/core/http/transformations/query_batching.rs"]}
{"id": "C14", "title": "group_by partitions the response", "statement": "Grouping a JSON response by a path gives, for each key, exactly the records found at that path with that key in document order; no record is lost, duplicated or put under another key.", "quantifier": "every JSON document and every path", "why_tests_cant": "Arbitrary nesting depth of arrays and objects on the path.", "anchors": ["src/core/json/mod.rs: gather_path_matches, group_by_key", "src/core/json/json_like.rs: JsonLike::group_by"]}
{"id": "C15", "title": "Combining auth checks: `and` needs all, `or` needs one, and the reported failure is the most severe relevant one", "statement": "An expression of providers combined with and/or succeeds for a request exactly when the boolean combination of the providers' outcomes is true, and when it fails the error is the one that carries the most information among those responsible.", "quantifier": "every and/or tree and every outcome assignment", "why_tests_cant": "Trees are unbounded; the result lattice has many errors whose order matters.", "anchors": ["src/core/auth/verification.rs: Verification::and, or", "src/core/auth/verify.rs: AuthVerifier"]}
{"id": "C16", "title": "JWT issuer and audience checks accept exactly the permitted tokens", "statement": "A token passes the claim checks iff the configured issuer (if any) equals its iss claim and, when audiences are configured, the token's audience set intersects the configured set.", "quantifier": "every token claim set and every provider configuration", "why_tests_cant": "The space of (claims, configuration) pairs is unbounded and includes absent claims and single/multiple audiences.", "anchors": ["src/core/auth/jwt/jwt_verify.rs: JwtVerifier", "src/core/auth/jwt/jwt_verify.rs: validate_iss, validate_aud"]}
{"id": "C17", "title": "Mustache templates render literally outside the braces", "statement": "Rendering a template built from literal text and expressions yields the literal pieces unchanged, in order, with each expression replaced by the value at its path (empty when absent); printing and re-parsing a template gives the same template; a template without expressions renders independently of the context.", "quantifier": "every template and every context", "why_tests_cant": "Strings are unbounded and the parser backtracks on malformed braces.", "anchors": ["src/core/mustache/parse.rs", "src/core/mustache/eval.rs", "src/core/mustache/model.rs"]}
{"id": "C18", "title": "REST paths match exactly the declared shape", "statement": "A REST endpoint matches a request iff the method is equal and the path has the same number of segments as the declared path, literal segments equal and parameter segments parse at their declared type; the extracted variables are those segments.", "quantifier": "every declared path and every request path", "why_tests_cant": "Arbitrary number of segments and contents.", "anchors": ["src/core/rest/path.rs: Path::parse, matches", "src/core/rest/endpoint.rs: Endpoint::matches", "src/core/rest/endpoint_set.rs: EndpointSet::matches"]}
{"id": "C19", "title": "REST query parameters reach the operation", "statement": "For a REST call under /api, every query parameter declared by the endpoint and present in the URL is available as the variable it is bound to, typed with that variable's declared type.", "quantifier": "every URL and every endpoint declaration", "why_tests_cant": "All URLs; existing tests call the matcher directly and bypass the handler that rewrites the URL.", "anchors": ["src/core/http/request_handler.rs: handle_rest_apis", "src/core/rest/query_params.rs: QueryParams::try_from_map, matches"]}
{"id": "C20", "title": "Merging configurations is associative, and the right side wins on conflicts", "statement": "Merging three configurations gives the same result however the merges are grouped, an empty configuration is neutral, a scalar setting given on the right overrides the left one and one not given keeps it, and list-like settings are concatenated or united.", "quantifier": "every triple of merged values: options, lists, sets, maps, nested JSON", "why_tests_cant": "Algebraic laws over unbounded values.", "anchors": ["src/core/merge_right.rs: MergeRight", "src/core/primitive.rs"]}
{"id": "C21", "title": "Merging subgraph input types only narrows what clients may send", "statement": "When the input types of two federated subgraphs are merged, any input value acceptable for the merged type is acceptable, restricted to the fields it knows, to both subgraphs.", "quantifier": "every pair of types / field sets / enums and every input value", "why_tests_cant": "Quantifies over all values of all types.", "anchors": ["src/core/config/config_module/merge.rs: Contravariant, shrink"]}
{"id": "C22", "title": "Merging subgraph output types covers every value either subgraph may return", "statement": "When output types of two federated subgraphs are merged, any value that conforms to either subgraph's type conforms to the merged type.", "quantifier": "every pair of types / field sets / enums and every output value", "why_tests_cant": "Quantifies over all values of all types.", "anchors": ["src/core/config/config_module/merge.rs: Covariant, expand"]}
{"id": "C23", "title": "Tree shaking keeps exactly what the operations can reach", "statement": "Removing unused types keeps every type, union and enum reachable from the query and mutation roots through fields, arguments, union members and implemented interfaces, and removes the other object and union types; the kept part has no reference to a removed type.", "quantifier": "every configuration, including cyclic type graphs", "why_tests_cant": "Type graphs are arbitrary, with cycles; termination and exactness need an invariant of the worklist.", "anchors": ["src/core/config/config.rs: get_all_used_type_names, unused_types, remove_types", "src/core/config/transformer/tree_shake.rs"]}
{"id": "C24", "title": "N+1 detection is sound and complete", "statement": "Every reported N+1 path is a real path from the query root along existing fields through a list to a resolver that is not batched, and whenever some such path exists at least one is reported.", "quantifier": "every configuration, including cyclic type graphs", "why_tests_cant": "Graphs with cycles have infinitely many paths; the memoised search caches intermediate results.", "anchors": ["src/core/config/npo/tracker.rs: PathTracker::iter, find"]}
{"id": "C25", "title": "Cache-Control sent to the client is never longer-lived than any upstream allowed", "statement": "The max-age announced for an operation is at most that of every upstream answer that contributed and it is marked private if any of them was; merging the members of a batch keeps this.", "quantifier": "every set of upstream responses, every order in which they arrive and every interleaving of the updates", "why_tests_cant": "Depends on the schedule of the concurrent updates and on all combinations of -1, 0 and positive ages.", "anchors": ["src/core/http/request_context.rs: set_min_max_age, set_cache_control", "src/core/async_graphql_hyper.rs: CacheControl", "src/core/jit/response.rs: AnyResponse::cache_control"]}
{"id": "C26", "title": "Schema compatibility check is sound for values", "statement": "If the checker accepts an actual schema where an expected schema is required, then every value valid for the actual schema is valid for the expected one; the relation is reflexive and transitive.", "quantifier": "every pair of JSON schemas and every value", "why_tests_cant": "Quantifies over all schemas and values.", "anchors": ["src/core/json/json_schema.rs: JsonSchema::validate, is_a"]}
{"id": "C27", "title": "Type wrappers survive conversion", "statement": "Converting a schema type such as [[A!]]! to and from the parser's representation and printing it loses no list or non-null wrapper; changing nullability or wrapping in a list affects only the outermost layer and never the named type.", "quantifier": "every type of any nesting depth", "why_tests_cant": "Unbounded nesting.", "anchors": ["src/core/wrapping_type.rs: Type"]}
{"id": "C28", "title": "Union/interface discrimination assigns exactly one possible concrete type", "statement": "When the concrete type of an upstream value is discriminated, the result is the same value with a __typename that is one of the declared possible types, element-wise for lists, nulls staying null; otherwise an error.", "quantifier": "every value, every list nesting and every set of member types", "why_tests_cant": "Values are unbounded; the repr matrix search depends on which fields are present.", "anchors": ["src/core/ir/discriminator.rs", "src/core/ir/discriminator/type_field_discriminator.rs", "src/core/ir/discriminator/keyed_discriminator.rs"]}
{"id": "C29", "title": "CORS headers never grant credentials to a wildcard origin", "statement": "For every accepted CORS configuration and every request, an allow-origin header is only sent for an origin that the configuration allows, and when credentials are allowed no wildcard is sent for origin, methods or headers.", "quantifier": "every configuration accepted at start-up and every request", "why_tests_cant": "All combinations of settings and origins.", "anchors": ["src/core/blueprint/cors.rs: Cors", "src/core/http/request_handler.rs: handle_request_with_cors"]}
{"id": "C30", "title": "Query-string encoding keeps every element of a list argument", "statement": "Encoding a list argument into a query string produces one key=value pair per element in order (repeated-key) or one pair with the comma-joined elements (comma-separated); scalars produce one pair; absent values produce none.", "quantifier": "every key and every value", "why_tests_cant": "All values including empty lists and values containing separators.", "anchors": ["src/core/http/query_encoder.rs: QueryEncoder::encode", "src/core/http/request_template.rs: create_url"]}
{"id": "C31", "title": "Two upstream calls share a cache entry only if they are the same call", "statement": "Responses are reused (cache or in-flight deduplication) between two resolver evaluations only when the two rendered upstream requests agree in everything that can affect the answer: method, url, body and the headers sent.", "quantifier": "every pair of resolver evaluations, for HTTP, GraphQL and gRPC upstreams", "why_tests_cant": "Quantifies over pairs of requests; a collision is a pair the tests never form.", "anchors": ["src/core/http/request_template.rs: cache_key", "src/core/graphql/request_template.rs: cache_key", "src/core/grpc/request_template.rs: cache_key", "src/core/ir/eval_io.rs"]}
{"id": "C32", "title": "Resolver expression evaluation is compositional", "statement": "A piped expression evaluates its second stage with the first stage's result as arguments, a path expression selects from the result, a merge merges all results left to right, an enum map maps every element, and the first error stops the expression; evaluation of an expression with an auth guard performs no upstream call if the guard fails.", "quantifier": "every expression tree and every context", "why_tests_cant": "Expression trees are unbounded.", "anchors": ["src/core/ir/eval.rs: IR::eval", "src/core/ir/model.rs: IR"]}
{"id": "C33", "title": "Adding caching to a resolver changes no result while the upstream is stable", "statement": "Wrapping a resolver with a cache wraps every upstream call in it and nothing else, and evaluating the wrapped expression returns the value the unwrapped one returns as long as equal cache keys denote equal upstream answers.", "quantifier": "every resolver expression, every prior cache content consistent with the upstream", "why_tests_cant": "Unbounded expressions and histories.", "anchors": ["src/core/ir/model.rs: Cache::wrap, IR::modify", "src/core/ir/eval.rs: IR::eval", "src/core/cache/cache.rs: InMemoryCache"]}
{"id": "C34", "title": "Cached upstream values expire", "statement": "A value stored in the resolver cache with a time to live is returned by every lookup before its expiry, unless overwritten, and by no lookup after it.", "quantifier": "every sequence of set/get operations and clock readings", "why_tests_cant": "Histories of arbitrary length.", "anchors": ["src/core/cache/cache.rs: InMemoryCache::set, get"]}
{"id": "C35", "title": "Nested unions are flattened to exactly their object members", "statement": "After union normalisation every union lists exactly the non-union types reachable through its members, and only genuinely recursive unions are rejected.", "quantifier": "every set of union definitions", "why_tests_cant": "Arbitrary nesting, sharing and cycles.", "anchors": ["src/core/config/transformer/nested_unions.rs: Visitor::walk_union"]}
{"id": "C36", "title": "A type used both as input and output is split", "statement": "After ambiguity resolution no object type name is used both as an input type and as an output type, and every field and argument still refers to an existing type of the same shape.", "quantifier": "every configuration", "why_tests_cant": "Fixpoint over arbitrary, possibly cyclic type graphs.", "anchors": ["src/core/config/transformer/ambiguous_type.rs: AmbiguousType::transform"]}
{"id": "C37", "title": "Renaming types is consistent", "statement": "After renaming types all references (fields, arguments, roots, unions, interfaces, enums) point to the renamed types and the schema is otherwise unchanged.", "quantifier": "every configuration and every rename map", "why_tests_cant": "Order of renames and collisions depend on the map.", "anchors": ["src/core/config/transformer/rename_types.rs"]}
{"id": "C38", "title": "Argument defaults and required arguments", "statement": "Before a resolver runs, every argument of a non-null type has a non-null value; absent arguments take their declared default, recursively inside input objects; given values are never changed.", "quantifier": "every argument type, every value, every nesting of input objects", "why_tests_cant": "Unbounded nesting of input objects and lists.", "anchors": ["src/core/jit/transform/input_resolver.rs: InputResolver::resolve_input, recursive_parse_arg"]}
{"id": "C39", "title": "Only allow-listed request headers are forwarded upstream", "statement": "The headers copied from the client request to an upstream call are exactly those in the configured allow-list (names compared case-insensitively); no other client header is forwarded.", "quantifier": "every header map and every allow-list", "why_tests_cant": "All header sets.", "anchors": ["src/core/http/request_handler.rs: create_allowed_headers", "src/core/http/request_template.rs: set_headers"]}
{"id": "C40", "title": "Batched upstream GraphQL/gRPC calls are split back by position/key", "statement": "When several upstream GraphQL calls are sent as one batch, the i-th caller receives the i-th element of the batched answer; with the gRPC batch each caller receives the records grouped under its own id.", "quantifier": "every batch and every upstream answer", "why_tests_cant": "Arbitrary batch sizes and answers of a different length.", "anchors": ["src/core/graphql/data_loader.rs: create_batched_request, extract_responses", "src/core/grpc/data_loader.rs"]}
{"id": "C41", "title": "Each batched resolver uses its own data loader", "statement": "At start-up every resolver that needs a data loader is given an index that is valid in the corresponding loader table, and the loader at that index was built from that resolver's own request template and group-by settings.", "quantifier": "every blueprint", "why_tests_cant": "Arbitrary number of types, fields and nested expressions.", "anchors": ["src/core/app_context.rs: AppContext::new"]}
{"id": "C42", "title": "A batch response body is the JSON array of the individual bodies, and a REST body is the unwrapped data", "statement": "The body sent for a batched request is a JSON array with the individual response bodies in request order; it is reported as successful only if all are.", "quantifier": "every list of responses", "why_tests_cant": "Unbounded batches.", "anchors": ["src/core/async_graphql_hyper.rs: GraphQLArcResponse::default_body, build_response", "src/core/jit/response.rs: BatchResponse::is_ok"]}
{"id": "C43", "title": "Query selections: every selected known field appears in the plan once per output name, with fragments expanded", "statement": "The plan built for an operation contains for each selection set exactly one field per output name, each known field selected directly or through (nested) fragments that apply, in order of first occurrence, with its alias, arguments and type condition.", "quantifier": "every query document with acyclic fragments and every schema", "why_tests_cant": "Arbitrary nesting of fields and fragments.", "anchors": ["src/core/jit/builder.rs: Builder::iter, build"]}
{"id": "C44", "title": "Config transformations compose predictably", "statement": "A pipeline of configuration transformations applies them left to right, stops at the first failing one, and the neutral transformation is an identity on both sides.", "quantifier": "every pipeline of any length and every input", "why_tests_cant": "Pipelines of unbounded length.", "anchors": ["src/core/transform.rs: Transform, Pipe, Default, When", "src/core/try_fold.rs: TryFold"]}
{"id": "C45", "title": "JSON path lookup", "statement": "Looking up a path in a JSON value returns the sub-value reached by following object keys and list indices and nothing otherwise; lookups compose along path concatenation.", "quantifier": "every JSON value and path", "why_tests_cant": "Unbounded depth.", "anchors": ["src/core/json/json_like.rs: get_path", "src/core/json/graphql.rs", "src/core/path.rs"]}
{"id": "C46", "title": "Validation errors point at the field that failed", "statement": "When a response is an error because a value is missing or does not fit its type, the path reported with the error, read from the root of the query through output names and list indices, leads to the field that failed.", "quantifier": "every plan, every store of resolver results", "why_tests_cant": "Depends on everything synthesized before the failing field; tests check single-error queries.", "anchors": ["src/core/jit/synth/synth.rs: Synth::iter, iter_inner, to_location_error"]}
{"id": "C47", "title": "Upstream GraphQL calls carry the operation as rendered", "statement": "The body sent to an upstream GraphQL server is a well-formed JSON text whose query is exactly the rendered operation: its arguments, directives and selection, whatever characters the argument values contain.", "quantifier": "every request template, every argument value, every selection", "why_tests_cant": "The text is assembled by string formatting; tests use a handful of argument values without special characters.", "anchors": ["src/core/graphql/request_template.rs: render_graphql_query", "src/core/ir/eval_context.rs: format_selection_set"]}
{"id": "C48", "title": "Upstream GraphQL calls ask for every selected field", "statement": "When a field is served by an upstream GraphQL server, the operation sent asks for every field the client selected below it that has no resolver of its own, with the client's arguments.", "quantifier": "every configuration and every selection, including aliases, fragments and repeated types", "why_tests_cant": "Depends on the combination of the type graph and the selection; tests cover a few schemas.", "anchors": ["src/core/blueprint/operators/graphql.rs: create_related_fields", "src/core/ir/resolver_context_like.rs: SelectionField::from_jit_field", "src/core/ir/eval_context.rs: format_selection_field"]}
{"id": "C49", "title": "Merging configuration files keeps every definition", "statement": "When several configuration files are merged, every type, enum and union (with its members) of any of them is in the result and nothing else is; what only one file defines is unchanged; every root operation stays reachable; settings given by one file are kept; and files that agree on their definitions can be merged.", "quantifier": "All lists of configuration files of any length and size, all names.", "why_tests_cant": "Tests merge a few fixed files; the number of files and the overlap of their names are unbounded.", "anchors": ["src/core/config/config_module/merge.rs::Cache::unify", "src/core/config/config_module/merge.rs::RootSchema::unify", "src/core/config/reader.rs::ConfigReader::read_all"]}
{"id": "C50", "title": "A configuration written as a document is read back", "statement": "A configuration written out as a GraphQL document and read again is the same configuration: types, fields, arguments, directives, resolvers, enums, unions, links and settings; and a document that is read, written and read again keeps its meaning.", "quantifier": "every configuration and every document", "why_tests_cant": "Tests print and re-read a few fixed files; each of the many kinds of definitions and directives may be combined with every other.", "anchors": ["src/core/config/into_document.rs: config_document", "src/core/config/from_document.rs: from_document", "src/core/directive.rs: DirectiveCodec"]}
{"id": "C51", "title": "The types behind an interface", "statement": "For every interface the server knows exactly the object types that implement it, directly or through other interfaces; this is found out in finite time for every configuration that can be read.", "quantifier": "every configuration, chains of interfaces of any length", "why_tests_cant": "Depends on the whole graph of implements declarations.", "anchors": ["src/core/config/config.rs: interfaces_types_map"]}
{"id": "C52", "title": "What the expressions of a template stand for", "statement": "In a template, an expression such as {{value.a}}, {{args.b.c}}, {{headers.x}}, {{vars.y}} or {{env.Z}} is replaced by the text of exactly what it names: the part of the parent value or of the arguments reached by the names and list positions, the allowed request header, the configured variable, the environment variable; an expression that names nothing is replaced by nothing.", "quantifier": "every expression, every request context (parent value, arguments, replaced values and arguments of any depth)", "why_tests_cant": "The value reached depends on the shape of data of any depth, and on whether contexts were replaced on the way; tests cover a few paths.", "anchors": ["src/core/path.rs: PathString, PathValue, PathGraphql for EvalContext", "src/core/ir/eval_context.rs: path_value, path_arg"]}
{"id": "C53", "title": "Upstream requests are the configured ones", "statement": "A request sent upstream has the configured method, the rendered URL with the configured query, and the rendered body in the configured encoding (for gRPC the rendered message as a POST); no request is sent only if the URL is none or the body cannot be encoded.", "quantifier": "every template and every request context", "why_tests_cant": "Templates and the data they are rendered with are unbounded; tests render a few of them.", "anchors": ["src/core/http/request_template.rs: to_request, create_url, set_body", "src/core/grpc/request_template.rs: render", "src/core/graphql/request_template.rs: to_request"]}
{"id": "C54", "title": "Which operations share one execution", "statement": "An operation is answered with the result of an identical operation in flight only if it is a query all of whose upstream calls allow it (or it is constant, or its resolvers are cached); mutations are executed once per request; an operation counts as protected exactly when every resolver in it is guarded.", "quantifier": "every plan: any number and nesting of fields, any resolver expression; every interleaving of requests", "why_tests_cant": "Depends on every resolver of the operation and on which other requests are in flight; tests run a few operations one at a time.", "anchors": ["src/core/jit/model.rs: OperationPlan::is_dedupe", "src/core/jit/transform/check_dedupe.rs", "src/core/jit/transform/check_protected.rs", "src/core/jit/transform/check_cache.rs", "src/core/jit/graphql_executor.rs: JITExecutor::execute"]}
{"id": "C55", "title": "The headers of an answer", "statement": "Of the headers upstreams answer with, the client gets exactly those listed as experimental, with the value of the last answer that carries one, and, if the configuration says so, the cookies of successful answers; every other header is the configured one or the server's own.", "quantifier": "every configuration and every sequence of upstream answers with any headers", "why_tests_cant": "What leaks depends on every upstream answer of an operation and on their order; tests use one or two fixed answers.", "anchors": ["src/core/http/request_context.rs: set_cookie_headers, add_x_headers, extend_x_headers", "src/core/http/request_handler.rs: update_response_headers", "src/core/blueprint/server.rs: handle_response_headers, handle_experimental_headers", "src/core/ir/eval_http.rs: set_headers"]}
{"id": "C56", "title": "An operation sent as application/graphql", "statement": "A GraphQL operation sent as the body of a request with content type application/graphql is executed as that operation, whatever text it contains.", "quantifier": "every operation text", "why_tests_cant": "The texts that break the conversion to JSON are not those tests use: quotes, backslashes, control characters anywhere in the text.", "anchors": ["src/core/http/request_handler.rs: graphql_request"]}
{"id": "C57", "title": "Which request is handled how", "statement": "A POST to the configured GraphQL route is executed, a GET of the configured status or metrics route is answered, a path below /api is looked up among the REST endpoints, and nothing else is served.", "quantifier": "every configuration of routes, every method and path", "why_tests_cant": "Routes are free texts that can collide with each other and with the fixed prefixes.", "anchors": ["src/core/http/request_handler.rs: handle_request_inner"]}
{"id": "C58", "title": "Scalars and enums in responses", "statement": "In every response a field of a custom scalar type is null or a value the scalar allows (integers within their width, texts of their format), and a field of an enum type is null or names a value of the enum, an alias used by an upstream being replaced by the name.", "quantifier": "every plan, every upstream value, every set of enum values and aliases", "why_tests_cant": "Depends on every value upstreams may send, at any depth of lists; tests try a few values.", "anchors": ["src/core/scalar.rs: Scalar::validate", "src/core/blueprint/index.rs: validate_enum_value", "src/core/blueprint/operators/enum_alias.rs: update_enum_alias", "src/core/jit/synth/synth.rs: iter_inner"]}
{"id": "C59", "title": "Linked files are all loaded", "statement": "Reading a configuration loads every file it links to, in the order of the links, from the place the link points to: scripts, certificates, keys, operations, password files, key sets and proto files end up in what is served, linked configurations are merged in, and a link that cannot be loaded makes reading fail.", "quantifier": "every configuration, every list of links, every directory, every content of the files", "why_tests_cant": "Depends on every combination and order of links and on where relative paths lead; tests link one file of each kind.", "anchors": ["src/core/config/reader.rs: ConfigReader::ext_links, read_all, resolve, resolve_path", "src/core/config/config_module.rs: Extensions"]}
{"id": "C60", "title": "Imports of proto files are followed completely", "statement": "Reading a proto file gives that file and exactly the files reachable over its imports, each import once, found in the given import paths or beside the file; imports in circles end, and an import that is missing makes reading fail.", "quantifier": "every graph of imports, with cycles, every set of import paths", "why_tests_cant": "Ranges over all graphs of imports; tests follow a few files.", "anchors": ["src/core/proto_reader/reader.rs: ProtoReader::read, resolve_dependencies, read_proto, resolve_path"]}
{"id": "C61", "title": "The cached reader gives the file asked for", "statement": "A file read through the cached reader is the file at that path, and reading a path again gives what the first reading gave.", "quantifier": "every sequence of reads, every change of the files in between, every hash function", "why_tests_cant": "Depends on the history of reads and on how the files change in between.", "anchors": ["src/core/resource_reader.rs: Cached::read"]}
{"id": "C62", "title": "A configuration is accepted only if its root fields can be resolved", "statement": "A configuration is accepted exactly if the root types it names exist and every way from a root type down to a leaf passes a field with a resolver; otherwise every root field that lacks one is reported.", "quantifier": "every configuration, with types in circles, scalars, enums, unions, root types of any size", "why_tests_cant": "Ranges over all graphs of types; the check shares a set of visited types between fields, so it depends on what was visited before.", "anchors": ["src/core/blueprint/schema.rs: to_schema, validate_query, validate_mutation, validate_field_has_resolver, validate_type_has_resolvers"]}
{"id": "C63", "title": "The value of a field without a resolver is what its parent holds", "statement": "A field without a resolver whose data must come from its parent holds what the parent's object holds under the field's original name, or null if it is absent, also when the field is renamed; its arguments and its type are those declared.", "quantifier": "every configuration, field, renaming, parent value and state of the outside world", "why_tests_cant": "Ranges over all configurations and all data; the steps that build the field overwrite each other's resolvers.", "anchors": ["src/core/blueprint/definitions.rs: to_field_definition, fix_dangling_resolvers, update_cache_resolvers", "src/core/blueprint/operators/modify.rs: update_modify", "src/core/jit/exec.rs: ExecutorInner::iter_field, execute"]}
{"id": "C64", "title": "Protected fields are given only to those the demanded providers accept", "statement": "If a field, its type or the type of its value is marked as protected, a request that any demanded provider refuses gets an authentication error and touches nothing outside, and a request that all of them accept gets what the field would give unmarked. Marks that cannot be met are reported at start-up.", "quantifier": "every configuration, set of providers, field, request and state of the outside world", "why_tests_cant": "Safety over all configurations and all requests; a single combination of steps that loses the guard is a leak.", "anchors": ["src/core/blueprint/operators/protected.rs: update_protected", "src/core/blueprint/auth.rs: Auth, Provider", "src/core/ir/eval.rs: IR::Protect", "src/core/blueprint/definitions.rs: to_field_definition, update_resolver_from_path"]}
{"id": "C65", "title": "An added field gives what its path leads to", "statement": "An added field gives what its path leads to in the value of the field the path starts with (null if it leads nowhere), under its own name and with the type of the field at the end of the path, null allowed; a path that leads nowhere in the types is refused.", "quantifier": "every configuration, path, data and state of the outside world", "why_tests_cant": "Ranges over all paths through all graphs of types and over all data.", "anchors": ["src/core/blueprint/definitions.rs: to_fields, update_resolver_from_path, process_path, process_field_within_type"]}
{"id": "C66", "title": "An entity's key names what is needed to fetch it", "statement": "With federation switched on, every type with a resolver can be asked for as an entity through its own resolver, and its @key names exactly what the resolver uses of a representation, so that two representations with the same key fields lead to the same upstream request; resolvers that use arguments, or fields that do not exist, are refused; everything else in the configuration stays as it is.", "quantifier": "every configuration, resolver of a type, pair of representations and request", "why_tests_cant": "Non-interference over all templates and all pairs of representations.", "anchors": ["src/core/config/transformer/subgraph.rs: Subgraph, KeysExtractor, Keys, combine_keys", "src/core/http/request_template.rs: RequestTemplate::to_request"]}
{"id": "C67", "title": "A field that calls other fields runs them in turn", "statement": "A field with @call runs the called fields one after the other: each with the arguments given for it, whose templates see what the step before gave, and just with that if none are given; the first error is the error of the call. It is accepted exactly if there is a step and every step names a resolvable field and gives all its required arguments; the protection of called fields is kept; calls that lead back to each other are never accepted.", "quantifier": "every configuration, list of steps, request and behaviour of the outside world", "why_tests_cant": "Ranges over all lists of steps and all upstream behaviours, including failing ones.", "anchors": ["src/core/blueprint/operators/call.rs: compile_call", "src/core/blueprint/dynamic_value.rs: DynamicValue::try_from", "src/core/ir/eval.rs: IR::Pipe"]}
{"id": "C68", "title": "Templates that are accepted at load time can be filled in at run time", "statement": "A field's resolver is accepted exactly if every expression in its address, query, headers of GraphQL and gRPC calls, arguments and gRPC body names a scalar below the parent, an argument, a configured variable, a header or the environment, and in an address nothing that may be null; so whenever the data has the declared types the address of an accepted field is complete.", "quantifier": "every configuration, field, resolver and request with data of the declared types", "why_tests_cant": "Ranges over all configurations and all values of the declared types; a test fixes both.", "anchors": ["src/core/blueprint/mustache.rs: MustachePartsValidator", "src/core/blueprint/operators/resolver.rs: update_resolver"]}
{"id": "C69", "title": "An @http field makes the one call it describes and answers with what select picks", "statement": "@http is accepted exactly if its query names existing arguments that lead to scalars, its header names are valid and its batch key comes with batching switched on and something to batch; it makes exactly one call with the given address, method, query, headers and body, and its value is the answer, or what select picks from it.", "quantifier": "every configuration, directive, field, request and behaviour of the outside world", "why_tests_cant": "Ranges over all directives and all upstream behaviours.", "anchors": ["src/core/blueprint/operators/http.rs: compile_http", "src/core/blueprint/operators/select.rs: apply_select", "src/core/blueprint/template_validation/mod.rs: validate_argument", "src/core/helpers/headers.rs: to_mustache_headers"]}
{"id": "C70", "title": "The schema generated from a sample answer is closed and describes the sample", "statement": "Generating types from any JSON sample leaves other types alone, gives every added type fields with valid names whose types are scalars or types added before, and the sample is a value of the type made for it; a member of listed objects is typed by any item that has a value for it.", "quantifier": "every JSON sample, name prefix and configuration the types are added to", "why_tests_cant": "Ranges over all JSON values of any depth; tests have a few fixed samples.", "anchors": ["src/core/generator/json/types_generator.rs: TypeGenerator", "src/core/helpers/gql_type.rs: to_gql_type, is_valid_field_name", "src/core/generator/mod.rs: NameGenerator"]}
{"id": "C71", "title": "The field generated from a sample request makes that request again", "statement": "From a sample request a field is generated whose arguments are exactly the numbers and UUIDs among the path's segments and the keys of the query, typed by the sample's values; with the sample's values for them the field sends the sample's request. The field and the types of its answer and body are added to the root type, everything else stays.", "quantifier": "every sample URL, body and answer, and every configuration the field is added to", "why_tests_cant": "Ranges over all paths, queries and JSON values; the interplay of two regular expressions, percent-decoding and templates shows only on particular texts.", "anchors": ["src/core/generator/json/http_directive_generator.rs: HttpDirectiveGenerator, UrlUtility", "src/core/generator/json/operation_generator.rs: OperationTypeGenerator", "src/core/helpers/gql_type.rs: detect_gql_data_type", "src/core/generator/json/types_generator.rs: TypeGenerator"]}
{"id": "C72", "title": "Unions in arguments become variants of the field that take the same arguments", "statement": "A field with unions anywhere in the types of its arguments is replaced by numbered variants of it, whose arguments lead to no union. Arguments are accepted by the field as configured if and only if one of the variants accepts them. Fields without such arguments, types, and everything else stay as configured; the pass ends on every configuration.", "quantifier": "every configuration, every field and every choice of argument values", "why_tests_cant": "Ranges over all graphs of types and unions and all values; nested unions, unions inside input types, shared and recursive types and generated names interact.", "anchors": ["src/core/config/transformer/union_input_type.rs: UnionInputType, Visitor::collect_nested_unions_for_type, walk_arguments, create_types_from_union"]}
{"id": "C73", "title": "Introspection says what the schema is beside the operation's own answer, and only where it is allowed", "statement": "If introspection is switched off, or a guard of the operation does not hold, an operation is told nothing about the schema. Otherwise an operation that asks about the schema gets its own answer, unchanged and in order, and beside it what it asked about the schema, under the name it asked for; errors of both are reported. The answer depends on that request only.", "quantifier": "every operation, schema, own answer and answer about the schema", "why_tests_cant": "Ranges over all documents, aliases and answers: names of the operation's own fields and of questions interact, and so do the caches.", "anchors": ["src/core/jit/builder.rs: Builder::build (is_introspection_query)", "src/core/jit/exec_const.rs: ConstValueExecutor::execute", "src/core/jit/response.rs: Response::merge_with", "src/core/jit/graphql_executor.rs: JITExecutor::execute"]}
{"id": "C74", "title": "Merging similar types keeps every type, every field and what paths of fields lead to", "statement": "Merging similar types ends. Every type is then found, under its own name or that of the merged type, with all its fields, and nothing is found that does not come from a type, field, interface or union before. A path of fields leads to what it led to before, or to JSON. At threshold 1.0 types of scalars and enums are merged only if their fields are the same up to JSON.", "quantifier": "every configuration, threshold, order of types and number of rounds", "why_tests_cant": "Ranges over all configurations: types refer to each other in cycles, results of comparisons are kept and reused, and each round merges what the round before made alike.", "anchors": ["src/core/config/transformer/merge_types/type_merger.rs: TypeMerger::merger", "src/core/config/transformer/merge_types/similarity.rs: Similarity::similarity_inner", "src/core/config/transformer/merge_types/mergeable_types.rs: MergeableTypes", "src/core/config/transformer/merge_types/pair_map.rs", "src/core/config/transformer/merge_types/pair_set.rs"]}
{"id": "C75", "title": "Definitions are removed from the served schema only if nothing leads to them", "statement": "Of the definitions of a blueprint those are kept, unchanged and in order, that can be met from the root types through the types of fields and arguments, interfaces, the objects that implement an interface, members of unions and fields of inputs; the others are removed. No definition that is kept names a removed one. The walk ends, and a second removal removes nothing.", "quantifier": "every blueprint: definitions of any number, naming each other in any way, cycles included", "why_tests_cant": "Ranges over all graphs of definitions; a test shows single graphs, and what is missing in one is a dangling name in the served schema.", "anchors": ["src/core/blueprint/compress.rs: compress, build_dependency_graph, identify_referenced_types"]}
{"id": "C76", "title": "Hooks of a call see each request and response once and lose nothing", "statement": "With hooks an HTTP field makes at most one call: the one the onRequest script returns, the field's own if it returns nothing, and none if it returns a response. Redirects the script answers with are followed and end. The onResponseBody script rewrites the final body once. A script that returns the request as it was given leaves the call as it was, and one that fails makes the field fail.", "quantifier": "every pair of scripts (arbitrary functions), request, upstream and number of redirects", "why_tests_cant": "Ranges over all scripts, URLs and headers: what a script gets is taken apart and put together again, and what is lost on the way depends on single characters.", "anchors": ["src/core/ir/eval_http.rs: EvalHttp::execute_with_worker", "src/core/worker_hooks.rs: WorkerHooks", "src/core/worker/worker.rs: Uri, WorkerRequest, WorkerResponse", "src/cli/javascript/codec.rs", "src/cli/javascript/runtime.rs: call"]}
{"id": "C77", "title": "Better names for types are found by use, and nothing else changes", "statement": "Naming types after the fields that use them gives each type the name most of its fields have (in the singular and capitalised) that is not the name of a type nor given to an earlier type. Names given are distinct and new; a type keeps its name only if it has no such name. The result is the configuration with every definition and every reference under its new name: no definition is lost, and no reference comes to mean something else.", "quantifier": "every configuration, and every way to make singular and capitalised names", "why_tests_cant": "Ranges over all configurations: which names clash depends on all types, enums, unions, scalars and fields at once, and on the order of names.", "anchors": ["src/core/config/transformer/improve_type_names.rs: CandidateGeneration, CandidateConvergence, ImproveTypeNames", "src/core/config/transformer/rename_types.rs: RenameTypes"]}
{"id": "C78", "title": "Flattening replaces chains of single fields by the value at their end, and nothing else", "statement": "Flattening a configuration leaves out every field from which exactly one way leads through types with one field to a scalar or an enum, and adds a field of the same name whose path is that way; input types, and all else, stay as they are. The new field has the type of the value at the end, null allowed.", "quantifier": "every configuration, every type and field, and chains of every length", "why_tests_cant": "Ranges over all configurations and all lengths of chains, including types that lead back to themselves.", "anchors": ["src/core/config/transformer/flatten_single_field.rs: get_single_field_path, FlattenSingleField", "src/core/blueprint/definitions.rs: update_args, process_path"]}
{"id": "C79", "title": "A configuration generated from proto files has what they declare, and names nothing that is missing", "statement": "For every set of proto files that the compiler of proto files lets through, the generation succeeds and every type name in the result is a known scalar or is defined. Each message becomes a type with exactly its fields, or, if a oneof has two or more fields, a union with one member for each choice and a common interface; each method becomes a field of the query type that makes this call with its input as argument and its output as type; each enum becomes an enum with its values. Names that contain no double underscore, end in none and are not those made up for choices never clash.", "quantifier": "every list of proto files, messages nested to every depth, every number of oneofs and fields, every package", "why_tests_cant": "Ranges over all files, nesting depths and combinations of oneofs; the types are collected in one table that later entries may overwrite.", "anchors": ["src/core/generator/from_proto.rs: Context, from_proto", "src/core/generator/graphql_type.rs: GraphQLType", "src/core/generator/proto/comments_builder.rs: CommentsBuilder", "src/core/blueprint/operators/grpc.rs: GrpcMethod::try_from"]}
{"id": "C80", "title": "A field with @grpc that is accepted calls a declared method, and what the server answers fits its type", "statement": "If a field with @grpc is accepted, its method is declared in the proto files, the call goes to the given address followed by package, service and method, and every answer the server may give for the declared message, with any optional field missing, fits the GraphQL type of the field. A configuration that was generated from the proto files is accepted for each of its methods. With a batch key, the field that is grouped is declared in the answer.", "quantifier": "every set of proto files, every configuration, every type, every answer; messages nested to every depth", "why_tests_cant": "Ranges over all proto files, configurations and answers; the check compares two schemas that are computed recursively from different sources.", "anchors": ["src/core/blueprint/operators/grpc.rs: compile_grpc, validate_schema, validate_group_by, to_operation, to_url", "src/core/json/json_schema.rs: TryFrom<&MessageDescriptor>, TryFrom<&FieldDescriptor>, is_a", "src/core/blueprint/from_config.rs: to_json_schema", "src/core/grpc/protobuf.rs: ProtobufSet, ProtobufService"]}
{"id": "C81", "title": "A gRPC method called with the Connect protocol is called at the same address with the same message", "statement": "When the calls of a configuration generated from proto files are converted to the Connect protocol, nothing changes but the resolvers that call gRPC methods. Each becomes a POST request to the server's address followed by package, service and method with the message as JSON (an empty object without one), content type application/json and Connect-Protocol-Version: 1; address, message, other headers, selection and deduplication stay. Each field generated for a method sends its argument to that method.", "quantifier": "every configuration, every @grpc, every set of proto files, every evaluation of the field", "why_tests_cant": "Ranges over all configurations, proto files and values the templates are filled with; tests convert a handful of literal directives and never render the requests of both.", "anchors": ["src/core/generator/proto/connect_rpc.rs: ConnectRPC::transform, From<Grpc> for Http", "src/core/blueprint/operators/grpc.rs: compile_grpc, to_url", "src/core/blueprint/operators/http.rs: compile_http", "src/core/http/request_template.rs: to_request", "src/core/grpc/request_template.rs: render"]}
{"id": "C82", "title": "A federated schema answers for its entities, each with the resolver of its own type, and gives its own text", "statement": "With federation on, the query field _entities, asked with a list of representations, answers in their order what the resolver of the type named by each representation gives for that representation, labelled with the type; if one of them names no entity the field fails before any upstream call. The field _service gives the printed schema followed by the line that opts in to federation 2. No other definition or field changes, and the schema is accepted if the resolver of every entity compiles.", "quantifier": "every configuration with federation on, every list of representations, every upstream and cache behaviour", "why_tests_cant": "Ranges over all configurations, all lists of representations mixed from all entity types, and all histories of upstream calls; tests ask for a few literal entities of one schema.", "anchors": ["src/core/blueprint/operators/apollo_federation.rs: compile_entity_resolver, compile_service, update_federation", "src/core/config/transformer/subgraph.rs: Subgraph::transform", "src/core/ir/eval.rs: IR::Entity, IR::Service", "src/core/blueprint/definitions.rs: to_fields"]}
{"id": "C83", "title": "The schema that clients are told of is the one that is written", "statement": "The schema built for introspection and validation has the root types of the configuration and tells of every type once. What it tells of a declared type is what the configuration says: an object with its fields that are not left out, under the names they are renamed to, each with its type, documentation and arguments with their types and defaults, followed by the added fields, and its interfaces; an input type, an interface, a scalar, an enum or a union likewise. Everything a client can meet from the root types is told of; beside declarations only the built-in scalars of fields are, each with its own rule. Declaring a built-in scalar or an enum without values is refused.", "quantifier": "every configuration that is accepted", "why_tests_cant": "Ranges over all configurations: all sets of types of every kind, all renamings and omissions; tests compare snapshots of literal schemas.", "anchors": ["src/core/blueprint/definitions.rs: to_definitions, to_scalar_type_definition, to_union_type_definition, to_input_object_type_definition, to_interface_type_definition, to_enum_type_definition, to_object_type_definition", "src/core/blueprint/into_schema.rs: to_type, inject_custom_scalars, SchemaBuilder::from", "src/core/blueprint/from_config.rs: config_blueprint, TryFrom<&ConfigModule> for Blueprint", "src/core/blueprint/compress.rs: compress"]}
{"id": "C84", "title": "The text of a document says what the document says", "statement": "The text that a document of definitions is printed as (of a configuration written as GraphQL, and of the schema that a federated service tells of itself) is GraphQL, and a reader of it finds the schema with its roots and all types of the document, each once: with their names, interfaces, fields, arguments, types with their lists and exclamation marks, defaults, members, values and directives with their arguments. Documents that differ in any of that have different texts.", "quantifier": "every document whose names are names, whose lists of fields, members and values are not empty, whose texts of values are values, and whose documentation is of single lines", "why_tests_cant": "Ranges over all documents: all trees of types, all names, all values; tests print and compare literal documents.", "anchors": ["src/core/document.rs: print, print_type_def, print_schema, print_field, print_input_value, print_enum_value, print_directives, print_directive, get_formatted_docs, LineBreaker", "src/core/config/into_document.rs: config_document", "src/core/blueprint/into_document.rs"]}
{"id": "C85", "title": "A configuration written as GraphQL and read again is the same", "statement": "The text that a configuration is written as (by the commands that generate, upgrade or show configurations) is read as that same configuration: with the same server, upstream and link settings, roots, types, fields, arguments, defaults, resolvers and other directives. A text that was read, written and read again means the same, and different configurations have different texts.", "quantifier": "every configuration whose settings documents and texts can say, all codecs of directives that read what they write, and all ways to make JSON of default values that keep the defaults of the configuration", "why_tests_cant": "Ranges over all configurations; tests compare the text of literal configurations with snapshots.", "anchors": ["src/core/config/config.rs: to_sdl, from_sdl", "src/core/document.rs", "src/core/config/into_document.rs", "src/core/config/from_document.rs"]}
{"id": "C86", "title": "A configuration generated of several sources answers each of them", "statement": "The configuration that is generated of samples of requests and of files has, for each sample, the field with the address, query, method, arguments and body of the sample's directive, and types that describe the sample's answer and body; it has the fields of the files as they are, the links of all files in order and the headers of all sources; the roots are those asked for. It fails only if a file cannot be read, a sample has no directive or a transformer fails.", "quantifier": "every list of sources in every order, every name of roots and every prefix of names, every answer and body; later sources that give the same field, and files that use the numbered names, excepted", "why_tests_cant": "Ranges over all lists of sources; tests compare snapshots of a few fixed sets of sources.", "anchors": ["src/core/generator/generator.rs: generate, generate_from_json", "src/core/generator/from_json.rs", "src/core/generator/json/schema_generator.rs", "src/core/generator/json/mod.rs"]}
{"id": "C87", "title": "Names that a language model suggests are used once and leave the configuration as it was", "statement": "Whatever a language model answers, only generated types that are not roots get a new name, each one that was suggested for it, that no type has and that no other type gets; a generated type keeps its name only if every suggestion is taken. With the new names, in whatever order they are used, the configuration is the old one, renamed everywhere alike, with the same roots. Naming ends once every question is answered.", "quantifier": "every configuration, every sequence of answers and failures of the service, every order of the new names", "why_tests_cant": "Ranges over all answers and failures of an external service; tests have only the conversion of one question and one answer.", "anchors": ["src/cli/llm/infer_type_name.rs: InferTypeName::generate", "src/cli/generator/generator.rs: generate", "src/core/config/transformer/rename_types.rs"]}
{"id": "C88", "title": "Links and telemetry that cannot be used are refused and what is wrong is told", "statement": "The links of a configuration are accepted, unchanged, exactly when each has a source, no two have the same id, and at most one is a script and at most one a key; otherwise every faulty link is told with its position, or else that there are two scripts or two keys. An exporter of telemetry is accepted exactly when its address, all its headers and its graph reference (<graph>@<variant>) can be used; then it is used as given with all its headers; otherwise everything wrong with it is told with its place.", "quantifier": "every list of links, every exporter and header, every reading of addresses and headers", "why_tests_cant": "Exactness in both directions over lists of links and all texts; the tests have six graph references and a few links.", "anchors": ["src/core/blueprint/links.rs: TryFrom<ConfigModule> for Links", "src/core/blueprint/telemetry.rs: to_opentelemetry, to_url, to_headers, validate_apollo, validate_graph_ref", "src/core/config/directives/link.rs", "src/core/config/directives/telemetry.rs"]}
{"id": "C89", "title": "The report of an error tells all of it and can be read", "statement": "The report of an error is its message, description and trace, and below them all its causes in order, each with a bullet and moved to the right, with their own causes below them; what is wrong with a configuration is told line by line, in order. There is a report exactly when no cause says nothing at all. When no text has more than one line, two errors with the same report have the same texts and the same causes.", "quantifier": "every error with causes of any number and depth, every text, whether or not colours are used", "why_tests_cant": "Injectivity and layout over all trees of errors and all texts; the tests have reports of depth one with texts of one line.", "anchors": ["src/core/errata.rs: Errata, Display for Errata, margin, bullet, caused_by, color, From<ValidationError<..>>, From<anyhow::Error>", "src/core/blueprint/error.rs: From<ValidationError<BlueprintError>> for Errata", "src/main.rs"]}
{"id": "C90", "title": "What a GraphQL server answers is passed on and errors are told as GraphQL wants them", "statement": "Every error of an answer is told with its message, its place in the query, its path and, if it is of gRPC, its code, description, message and details. A field that is fetched from a GraphQL server has the value that the server's answer has for it, or null, for each request that asked; and the answer to a request has, after its own error, every error that servers gave to what this request asked them for, once each and in order, with message, path and first location.", "quantifier": "every error, every history of fetches shared by any number of requests with or without a cache, every reading of answers", "why_tests_cant": "Ranges over all histories of shared and cached fetches by several clients; tests have single requests with one error each.", "anchors": ["src/core/ir/eval_http.rs: parse_graphql_response", "src/core/jit/graphql_error.rs: GraphQLError, ErrorExtensions", "src/core/jit/error.rs: Error", "src/core/ir/error.rs: Error", "src/core/jit/model.rs: Positioned, From<ServerError>", "src/core/jit/exec.rs: Executor::execute", "src/core/ir/eval_io.rs: eval_io"]}
{"id": "C91", "title": "Starting a project keeps the files of the user", "statement": "Wherever `tailcall init` is stopped, a file that was in the folder is as it was unless the user agreed to its being overwritten; no file but the command's own five is touched, and each of them holds a beginning of what is meant for it. If the command succeeds, each of the five is whole, or was there and has been left alone. Of `.graphqlrc.yml` all settings but the schema are kept, and what the schema lists stays before the patterns that are added.", "quantifier": "every folder, every list of answers, every point at which the command stops, every failing or torn write, every YAML mapping with distinct keys", "why_tests_cant": "Ranges over crash points and sequences of answers to prompts; the command is interactive and has no tests.", "anchors": ["src/cli/tc/init.rs: init_command, confirm_and_write_yml, default_graphqlrc, create_main", "src/cli/runtime/mod.rs: confirm_and_write, create_directory", "src/cli/runtime/file.rs: read, write", "src/core/merge_right.rs: MergeRight for serde_yaml::Value"]}
{"id": "C92", "title": "A constant given with @expr is accepted only if it is a value of the field's type, and is what the field gives", "statement": "A field with `@expr` whose body has no templates is accepted exactly if the body is a value of the field's type, and then the field is that body in every request. If the body has templates, it is accepted, and the field is the body with its templates filled. Where no type is reached from itself through fields without resolvers the check comes to an end.", "quantifier": "every configuration, every type, every JSON value, every request", "why_tests_cant": "Ranges over all schemas with nested lists and objects and all JSON values; tests have a few scalars.", "anchors": ["src/core/blueprint/operators/expr.rs: compile_expr, validate_data_with_schema", "src/core/blueprint/from_config.rs: to_json_schema", "src/core/json/json_schema.rs: JsonSchema::validate", "src/core/blueprint/dynamic_value.rs: DynamicValue", "src/core/serde_value_ext.rs: render_value"]}
{"id": "C93", "title": "A configuration that a client names is read from servers, and no file of the machine is read for it", "statement": "With the showcase on, a request names the URL of a configuration, and its operation is run on that configuration. A name that is no URL is refused, and without a name nothing is read. If the URL and the links of the configuration are of http servers, the answer does not depend on the files of the machine.", "quantifier": "every query, every configuration, every set of files, every answer of servers, every environment", "why_tests_cant": "Ranges over all files of a machine and all configurations that clients may give; tests name one URL.", "anchors": ["src/core/http/showcase.rs: create_app_ctx", "src/core/http/request_handler.rs: handle_request_inner", "src/core/resource_reader.rs: Direct::read", "src/core/config/reader_context.rs: ConfigReaderContext::path_string", "src/core/config/reader.rs: ConfigReader::read"]}
{"id": "C94", "title": "Generating a configuration asks for every input once and writes the output only, at the end, and over a file only if the user agrees", "statement": "`tailcall gen` asks the server of every curl input once, in order, with the method, URL, headers and body that are given, and stops at the first that fails. It writes one file at most, the output, after everything else has succeeded; if that exists, only after the user agreed. It succeeds only if the output was written or the user declined. Relative places are found from the folder of its file. The links to proto files that it writes lead from the folder of the output to these files.", "quantifier": "every file of the command, every list of inputs, every answer of servers and users, every state of the file system", "why_tests_cant": "Ranges over all lists of inputs with all places where one may fail, and all paths; tests run some recorded configurations.", "anchors": ["src/cli/generator/generator.rs: Generator::generate, resolve_io, write, should_overwrite, to_relative_path", "src/cli/generator/config.rs: Config::into_resolved, Location::into_resolved, between, Preset::validate_from", "src/cli/generator/source.rs: ConfigSource::detect", "src/core/config/source.rs: Source::detect"]}
{"id": "C95", "title": "Linking to a gRPC server reads every service it lists, with all files these need, and tells the server nothing else", "statement": "For a link to a gRPC server, the files that are read are, for every service that the server lists except the one for reflection, the file that the service is in and every file that is imported from there. If reading fails, then the server did not give something that is needed. With finitely many files reading ends. Nothing of the environment of the process is sent.", "quantifier": "every server (every list of services, every graph of imports, cyclic ones too), every environment", "why_tests_cant": "Ranges over all graphs of files that servers may give; tests have one recorded server.", "anchors": ["src/core/proto_reader/fetch.rs: GrpcReflection, request_proto", "src/core/proto_reader/reader.rs: ProtoReader::fetch, reflection_resolve, resolve_dependencies"]}
{"id": "C96", "title": "What `tailcall check` accepts `tailcall start` serves, and nothing else", "statement": "A configuration that is served was accepted by the check; it is served at the address and port it gives, over TLS exactly if it has a certificate, and with batches exactly if it asks for them. A configuration that the check accepts is served if the machine can bind its address and its certificates fit. What the check refuses is refused with the same error. The URL that is printed leads to the server.", "quantifier": "every configuration, every machine (what can be bound, number of processors)", "why_tests_cant": "Ranges over all configurations and machines; tests start a server for a few and never compare with the check.", "anchors": ["src/cli/tc/check.rs: check_command", "src/cli/tc/start.rs: start_command", "src/cli/server/http_server.rs: Server::start, fork_start", "src/cli/server/server_config.rs: ServerConfig", "src/cli/server/http_1.rs: start_http_1", "src/cli/server/http_2.rs: start_http_2"]}
{"id": "C97", "title": "The printed schema has every line of the schema but the built-in directives", "statement": "What `tailcall check --schema` prints are the lines of the schema in order, in the same paragraphs with one empty line between them. Only the definitions of the built-in directives are left out, only tabs are replaced, and a schema that is tidy is printed as it is.", "quantifier": "every text that the schema may have (every list of lines, both kinds of line breaks)", "why_tests_cant": "Ranges over all texts, in particular over descriptions that users write; tests have one snapshot for each of some configurations.", "anchors": ["src/core/print_schema.rs: print_schema"]}
{"id": "C98", "title": "Telemetry counts every request once and tells of it only what is named", "statement": "With an exporter every request is counted once, also one that fails, and exactly its path, its method, the first values of the headers that the configuration names, its route and the status of its answer are told; other headers, the query and the body are not. Without an exporter nothing is counted. Requests to upstreams are counted once, counting changes no answer, and errors do not tell the URL, which may have secrets.", "quantifier": "every request, every list of named headers, every behaviour of the handlers and of upstreams", "why_tests_cant": "That secrets are not told is about pairs of requests and about all headers; tests look at no metric.", "anchors": ["src/core/http/telemetry.rs: RequestCounter", "src/core/http/request_handler.rs: handle_request, handle_request_inner, handle_rest_apis, graphql_request", "src/cli/runtime/http.rs: RequestCounter, NativeHttp::execute"]}
{"id": "C99", "title": "REST endpoints are what the operations say, in whatever order they are written", "statement": "Every operation with `@rest` is an endpoint with the path, method, query and body that the directive gives, and no other operation is one. A directive without a path or a method is refused and what is missing is told. Which endpoint answers a request does not depend on the order of the operations of a document. Checking an endpoint gives its variables values of their types.", "quantifier": "every list of operations in every order, every directive, every request", "why_tests_cant": "Ranges over all orders in which a hash map may give operations, which differ from start to start; tests have one operation per document.", "anchors": ["src/core/rest/directive.rs: Rest::try_from", "src/core/rest/endpoint.rs: Endpoint::try_new, get_default_variables", "src/core/rest/endpoint_set.rs: EndpointSet", "src/core/rest/operation.rs: validate_operations"]}
{"id": "C100", "title": "Other hosts answer the requests that arrive there, with the configurations they name", "statement": "On AWS Lambda and in Cloudflare Workers, a request reaches tailcall with the method, URL, headers and body it arrived with, and answers go back unchanged. A worker answers a request with the configuration the request names, whatever was asked before or is asked meanwhile; failures are not kept. Cached values are the values that were cached, and are kept as long as `maxAge` says. Usage is tracked only if the user did not turn it off.", "quantifier": "every event, every history of requests of a worker and every order of their steps, every value and time, every environment", "why_tests_cant": "Ranges over all histories and interleavings of requests that share one kept context, and over all values; the tests of the hosts convert one request and one response.", "anchors": ["tailcall-aws-lambda/src/http.rs: to_request, to_response", "tailcall-cloudflare/src/http.rs: to_request, to_method, to_response", "tailcall-cloudflare/src/handle.rs: get_app_ctx", "tailcall-cloudflare/src/cache.rs: CloudflareChronoCache", "src/core/ir/eval.rs: eval (IR::Cache)", "tailcall-tracker/src/can_track.rs: can_track"]}
{"id": "C101", "title": "Tracking tells nothing when it is off, and is without effect on commands", "statement": "When tracking is off, no program is run and nothing is sent. A command comes to the same whether its use is told or not and whether telling works or not. When tracking is on, every event is told once and in order to each collector; mail addresses are looked for once, and of what the programs print nothing but whole addresses is told.", "quantifier": "every history of events, machines and networks, every text that a program prints", "why_tests_cant": "Ranges over all histories of events with every pattern of failures of the collectors, and over all texts of keys and settings; the test sends one event.", "anchors": ["tailcall-tracker/src/dispatch.rs: Tracker::dispatch, email, parse_email", "tailcall-tracker/src/event.rs: Event", "src/cli/tc/run.rs: run"]}
{"id": "C102", "title": "Operations are answered within the time that is set, and validated and traced if that is set", "statement": "With `globalResponseTimeout`, an operation that takes longer is answered at the limit with null and an error, and any other with its own answer. With `queryValidation`, an operation that breaks the rules is refused before a resolver is asked. With `apolloTracing`, answers carry a trace and are otherwise the same. REST operations are validated when the configuration is checked, whatever is set.", "quantifier": "every combination of settings, every operation with every answer and duration", "why_tests_cant": "Ranges over all durations of resolvers, at and on both sides of the limit, and all combinations of settings; no test has a slow resolver with a limit.", "anchors": ["src/core/blueprint/timeout.rs: GlobalTimeout", "src/core/blueprint/blueprint.rs: Blueprint::to_schema_with", "src/core/jit/exec_const.rs: ConstValueExecutor::execute", "src/core/http/request_handler.rs: handle_rest_apis", "src/core/rest/operation.rs: OperationQuery::validate"]}
{"id": "C103", "title": "Outdated project files are warned of, and the log has the level that is set", "statement": "Before `check` and `start`, for each configuration file whose directory holds a `.tailcallrc.graphql` or `.tailcallrc.schema.json` that is not the one of this version or cannot be read, there is one warning that names exactly those files; directories without them, or with those of this version, are not warned of. The log level is the one named by `TAILCALL_LOG_LEVEL`, else by `TC_LOG_LEVEL`, else the default of the program; an event is logged exactly when it is at least that serious and comes from the program itself.", "quantifier": "every list of paths, every content of the disk, every environment, every event", "why_tests_cant": "Ranges over all contents of all directories and all values of two variables in any mixture of cases; the tests touch neither.", "anchors": ["src/cli/tc/validate_rc.rs: validate_rc_config_files", "src/core/tracing.rs: get_log_level, default_tracing, filter_target", "tailcall-aws-lambda/src/main.rs: main"]}

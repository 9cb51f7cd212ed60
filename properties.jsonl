{"id": "C01", "title": "Message framing round trip", "statement": "Whatever non-empty messages of at most 2^30 bytes one side writes through a protocol channel, the other side reads exactly those messages, byte for byte and in order, and then sees the end of input; additional header lines around Content-Length do not change the body that is delivered.", "quantifier": "all finite sequences of message bodies (any bytes, sizes 1..2^30) and all extra header lines", "why_tests_cant": "message contents, counts and sizes are unbounded; a body may itself look like a header or contain line ends", "anchors": ["language_server/src/base_protocol_channel.cpp: write_message, read_message, read"]}
{"id": "C02", "title": "Debug-message queue delivers every item once, in order, and never sleeps on work", "statement": "For a queue with any number of producers and one consumer, under every interleaving the values popped form a prefix of the values accepted by push, nothing is duplicated or lost, and the consumer is never left asleep while an item or a termination request is waiting.", "quantifier": "all interleavings of push, pop, terminate and wake-ups", "why_tests_cant": "tests execute a handful of schedules; lost wake-ups show only under rare ones", "anchors": ["language_server/src/blocking_queue.h: push, pop, terminate"]}
{"id": "C03", "title": "Requests are handled in arrival order, one at a time, none lost or repeated", "statement": "Until the manager is ended or a server is finished, the sequence of requests handed to servers by the worker is a prefix of the sequence of accepted requests, and a request is never handled twice.", "quantifier": "all interleavings of request arrival, worker steps, finish and end", "why_tests_cant": "arrival/worker races are unbounded", "anchors": ["language_server/src/request_manager.cpp: add_request, handle_request_, finish_server_requests, end_worker"]}
{"id": "C04", "title": "Only superseded work is cancelled", "statement": "When the worker starts a request with the cancellation flag raised, a newer open/change request for the same file is already behind it in the queue; so the newest version of every file is never started cancelled by the worker. As long as no server is finished, the request that is running is cancelled only when such a newer request has arrived. (Finishing a server raises the flag for whatever is running, also on another server.) Conversely, when a didOpen or didChange for a file arrives while a request about that file is running, the running request is cancelled until it ends, and every request about the file that arrived before is cancelled whenever the worker runs it.", "quantifier": "all interleavings of request arrivals and worker steps", "why_tests_cant": "depends on arrival history and timing", "anchors": ["language_server/src/request_manager.cpp: add_request, handle_request_, get_request_file_"]}
{"id": "C05", "title": "After finishing a server none of its requests runs", "statement": "When finish_server_requests(s) returns, no request of server s remains queued, and none is being executed either, so s may be destroyed - except when the queue was empty on entry while the worker was executing a request of s. Unless that exception applies, nothing of s is started afterwards until a new request for it arrives. The call returns as soon as the worker has left a request of s, and the queued requests of s have been executed in order; from the time it has found something queued the cancellation flag is raised until it returns.", "quantifier": "all interleavings of the worker with the finishing thread", "why_tests_cant": "a use-after-free window of a few instructions is not reachable reliably from a test", "anchors": ["language_server/src/request_manager.cpp: finish_server_requests", "language_server/src/main.cpp", "language_server/src/dap/dap_session.cpp"]}
{"id": "C06", "title": "The client always sees the newest diagnostics", "statement": "After every diagnostics notification, folding all publishDiagnostics messages sent so far (last one per file wins) gives, for every file, exactly the diagnostics of the newest round, and the empty list for every file that has none, provided the files involved have different URIs; with the URIs the server sends this is so for all local files whose names contain neither a percent sign nor a backslash and for documents not saved yet.", "quantifier": "all sequences of diagnostic rounds over any files", "why_tests_cant": "stale squiggles depend on the history of which files had diagnostics earlier", "anchors": ["language_server/src/lsp/lsp_server.cpp: consume_diagnostics"]}
{"id": "C07", "title": "Semantic tokens decode to the tokens that were highlighted", "statement": "Decoding the relative token array sent to the client by the LSP rule (delta line, delta start, length, type) yields exactly the positions, lengths and types of the highlighted tokens in order (one per start position); for symbols highlighted in any order and continued over any number of lines, a character is coloured with a type exactly when a symbol of that type contains it, provided symbols do not overlap.", "quantifier": "all lists of highlighted symbols, all sort results", "why_tests_cant": "relative encoding depends on the whole prefix of the list", "anchors": ["language_server/src/lsp/feature_language_features.cpp: convert_tokens_to_num_array"]}
{"id": "C08", "title": "Loaded text is always valid UTF-8, and valid text is untouched", "statement": "For every byte sequence the text kept for a file is the input with every byte that does not start a complete character (length-prefix form of UTF-8) replaced by U+FFFD; UTF-8 input is unchanged, a well-formed part survives whatever surrounds it, and repairing twice equals repairing once.", "quantifier": "all byte sequences", "why_tests_cant": "the set of malformed sequences is infinite", "anchors": ["parser_library/src/workspaces/file_impl.cpp: replace_non_utf8_chars"]}
{"id": "C09", "title": "Line table and position mapping are exact", "statement": "For every text, the line table lists exactly the offsets that start a line (LF, CR, CRLF each end one line), and mapping a (line, UTF-16 column) inside a line gives the byte offset of the code point at that column.", "quantifier": "all texts and all positions", "why_tests_cant": "texts and positions are unbounded; surrogate pairs and mixed line ends multiply the cases", "anchors": ["parser_library/src/workspaces/file_impl.cpp: find_newlines, create_line_indices, index_from_position, length_utf16"]}
{"id": "C10", "title": "Incremental edits keep text and line table consistent", "statement": "After any sequence of full and ranged edits whose ranges lie inside the document and that do not cut or create a CRLF pair at their borders, the stored text equals the result of applying the edits one after another to the text, the version grows by one per edit, and the incrementally maintained line table equals the one computed from scratch.", "quantifier": "all sequences of edits", "why_tests_cant": "the line table is updated incrementally, so its correctness depends on the full edit history", "anchors": ["parser_library/src/workspaces/file_impl.cpp: did_open, did_change"]}
{"id": "C11", "title": "Program name patterns match what they say", "statement": "A pattern selects a one-line name exactly when the name can be obtained by replacing each '?' by one byte, each '*' by any sequence and, if the pattern contains '+', by letting each '+' repeat the item before it; without '+' this is the documented meaning, and a name the documented meaning selects is never missed.", "quantifier": "all patterns and names", "why_tests_cant": "regular-language membership over all strings", "anchors": ["parser_library/src/workspaces/wildcard.cpp: wildcard2regex"]}
{"id": "C12", "title": "Processor group selection is deterministic and respects precedence", "statement": "As long as no configuration load reads the group file and then fails on the program file, the processor group used for a program is the one of the exact entry if there is one, otherwise that of the first pattern in configuration order that matches, otherwise the implicit group, all with respect to the last successful load.", "quantifier": "all configurations and program names", "why_tests_cant": "configurations are arbitrary", "anchors": ["parser_library/src/workspaces/workspace.cpp: get_proc_grp_by_program, get_program"]}
{"id": "C13", "title": "Macro lookup takes the first library in configured order", "statement": "Loading a member finds it in the first library of the group's list that has it; within a library the member name of a file is what remains after removing its longest configured extension, when exactly one file provides a member that file is found, when several do a warning is reported, and a file that was found is stable until refresh.", "quantifier": "all library lists, directory contents and extension lists", "why_tests_cant": "depends on arbitrary directory contents and orders", "anchors": ["parser_library/src/workspaces/workspace.cpp: parse_library, get_library", "parser_library/src/workspaces/library_local.cpp: load_files, find_file"]}
{"id": "C14", "title": "Open documents reflect the editor", "statement": "Through any sequence of open, change, close and internal file requests, the text seen for an open document is the opened text with the changes applied, changes to unknown documents do nothing, and a closed document is no longer reported as open.", "quantifier": "all operation histories over any documents", "why_tests_cant": "history dependent", "anchors": ["parser_library/src/workspaces/file_manager_impl.cpp: did_open_file, did_change_file, did_close_file, add_file"]}
{"id": "C15", "title": "A document is always served by the most specific workspace that contains it, and a removed workspace stops serving", "statement": "If every workspace folder is announced under its own path, a document is served by the longest open folder whose path is a prefix of the document's path, by the implicit workspace exactly when there is none, independently of hash-table order, and a removed folder stops serving; under arbitrary display names, a document of a folder whose name is not longer than its path is served by a folder lying in that folder.", "quantifier": "all sets of workspaces and document paths", "why_tests_cant": "arbitrary names and histories", "anchors": ["parser_library/src/workspace_manager_impl.h: add_workspace, remove_workspace, ws_path_match, prefix_match"]}
{"id": "C16", "title": "Relocatable address arithmetic is linear", "statement": "For every assignment of addresses to sections and lengths to pending spaces, adding two relocatable expressions, adding or subtracting an integer and negating yield the sum, the difference and the negative of their values, and so does subtracting two expressions that mention each common section and pending space equally often; every space already resolved is mentioned once.", "quantifier": "all addresses (any multiplicity of any bases) and all section placements", "why_tests_cant": "the algebra has unboundedly many operands", "anchors": ["parser_library/src/context/ordinary_assembly/address.cpp: merge_entries, operator+, operator-"]}
{"id": "C17", "title": "Symbol values obey assembler arithmetic", "statement": "Combining absolute and relocatable values with + and - yields the value that the arithmetic of their addresses demands (except an absolute minus a relocatable value), and the result is absolute exactly when it does not depend on placement; unary minus negates; multiplication and division apply only to absolute values and division by zero gives zero; nothing but an overflow of absolute values is undefined.", "quantifier": "all pairs of symbol values", "why_tests_cant": "all value combinations", "anchors": ["parser_library/src/context/ordinary_assembly/symbol.cpp: symbol_value operators"]}
{"id": "C18", "title": "Reserved storage is aligned, disjoint and inside the section", "statement": "In any sequence of reservations (of known lengths, or of lengths known only later that end on the boundary they are given) and ORGs, every area of known length starts at the next multiple of its power-of-two boundary (so it skips fewer bytes than the boundary), areas reserved without an intervening ORG follow each other without overlap, and every location reached stays at or below the high-water mark. Resolving a pending length later moves nothing. Provisos shown necessary by refuted variants: an area of later-known length that does not end on its boundary misaligns what follows, and a displaced alignment space is forgotten.", "quantifier": "all sequences of reservations and ORGs, all eventual lengths of pending areas", "why_tests_cant": "arbitrary statement sequences", "anchors": ["parser_library/src/context/ordinary_assembly/location_counter.cpp: reserve_storage_area", "parser_library/src/context/ordinary_assembly/location_counter_data.cpp: align"]}
{"id": "C19", "title": "ORG without operand returns to the high-water mark", "statement": "After any sequence of storage reservations and ORGs - backward, forward, aligned, displaced, to addresses known now or only later - the location is the one the statements specify, the highest of the values the counter keeps is the high-water mark, and ORG with no address continues there. Provisos shown necessary by refuted variants: a negative displacement is applied only when going back; in a section's later location counters ORG without address uses no boundary and no jump crossed a pending length; the next location counter of a section starts where this one was left, not at its high-water mark.", "quantifier": "all sequences of reservations and ORGs, all eventual lengths of pending areas", "why_tests_cant": "history dependent", "anchors": ["parser_library/src/context/ordinary_assembly/location_counter.cpp: set_value, set_available_value, check_available_value", "parser_library/src/context/ordinary_assembly/location_counter_data.cpp"]}
{"id": "C20", "title": "Forward references get the same values in every order of definition", "statement": "Resolving waiting definitions always ends, and gives every symbol, length attribute and area length the same value whatever order resolvable definitions are picked in: the value its definition has in the final state. This holds while no address is multiplied or divided and differences are taken between addresses that mention each section and area equally often (or once each); otherwise the order can matter.", "quantifier": "all sets of waiting definitions and all resolution orders", "why_tests_cant": "iteration order of a hash table is unspecified", "anchors": ["parser_library/src/context/ordinary_assembly/symbol_dependency_tables.cpp: resolve, resolve_dependant"]}
{"id": "C21", "title": "Cyclic symbol definitions are rejected, acyclic ones accepted", "statement": "Adding a definition reports a cycle exactly when the new definition would make its target depend on itself, and the check ends as long as the waiting definitions are not already cyclic; for programs of symbol definitions without attributes of later symbols and without pending lengths that is always so. Cycles through pending lengths or hidden attributes are not noticed and make the next check run forever.", "quantifier": "all sets of waiting definitions and all histories", "why_tests_cant": "graph sizes unbounded", "anchors": ["parser_library/src/context/ordinary_assembly/symbol_dependency_tables.cpp: add_dependency, check_cycle"]}
{"id": "C22", "title": "SETA arithmetic is exact or diagnosed", "statement": "+, -, * and / on 32-bit values give the mathematical result (quotient truncated toward zero, 0 for division by zero) when it fits 32 bits and otherwise 0 together with an overflow diagnostic; unary minus is exact for every operand but -2^31.", "quantifier": "all pairs of 32-bit integers", "why_tests_cant": "2^64 pairs", "anchors": ["parser_library/src/expressions/conditional_assembly/ca_operator_binary.cpp: overflow_transform, add, sub, mul, div"]}
{"id": "C23", "title": "Shift operators implement the machine shifts", "statement": "SLA, SRA, SLL and SRL shift the left operand by the low six bits of the right operand as the machine instruction does, for non-zero counts; SRA by 32 or more only for negative operands; SLA exactly when the operand is negative, the count is at least 32, or the bit moved into the sign position is zero (so always when the product fits).", "quantifier": "all 32-bit operands and shift counts", "why_tests_cant": "2^64 pairs", "anchors": ["parser_library/src/expressions/conditional_assembly/ca_operator_binary.cpp: shift_operands"]}
{"id": "C24", "title": "Logical expressions group by operator priority and lose nothing", "statement": "Every list of terms and operators is accepted exactly when operands (with any prefix operators) and operators alternate, and otherwise answered with one diagnostic. The tree built for an accepted list contains exactly the written operands and operators in their order. It is grouped by operator priority - and is then the only such tree - exactly when no run of ever stronger operators is followed by an operator that is not stronger than the last of the run but stronger than its first.", "quantifier": "all term/operator lists", "why_tests_cant": "expression lists are unbounded; wrong grouping shows only from four operands on", "anchors": ["parser_library/src/expressions/conditional_assembly/terms/ca_expr_list.cpp: resolve, retrieve_term, retrieve_binary_operator", "parser_library/src/expressions/conditional_assembly/ca_expr_policy.cpp"]}
{"id": "C25", "title": "Substring and duplication", "statement": "'s'(b,n) is the n bytes from position b, cut at the end of s, for 1 <= b <= length; with the length omitted it is the rest of s; duplication is the k-fold repetition; concatenation joins; all other arguments produce a diagnostic and an empty result (the omitted-length form for positions down to -2^31+4066), and neither these nor the conversion functions ever produce more than 4064 characters.", "quantifier": "all strings and 32-bit integers", "why_tests_cant": "all string/integer combinations", "anchors": ["parser_library/src/expressions/conditional_assembly/terms/ca_string.cpp: substring, duplicate"]}
{"id": "C26", "title": "Conversion functions are mutually inverse", "statement": "B2A(A2B(n)) = D2A(A2D(n)) = D2A(SIGNED(n)) = X2A(A2X(n)) = n for every 32-bit n, and C2A(A2C(n)) = n when the four characters are ASCII; the conversions accept exactly binary, signed decimal and hexadecimal numerals of the allowed length and give their value; X2B and B2X, X2C and C2X, B2C and C2B are inverse up to leading zeros on digits and on whole characters; ISBIN, ISHEX and ISDEC hold exactly for the strings accepted (unsigned for ISDEC); FIND and INDEX give the least position; DCVAL undoes DOUBLE and DCLEN is the length of DCVAL.", "quantifier": "all 32-bit integers and all strings", "why_tests_cant": "2^32 integers and unbounded strings", "anchors": ["parser_library/src/expressions/conditional_assembly/terms/ca_function.cpp"]}
{"id": "C27", "title": "EBCDIC translation is a bijection", "statement": "The translation tables are permutations of the 256 byte values inverse to each other and agree with the printable part of the code page; translating any string of non-zero EBCDIC bytes to text and back yields the string, and text of valid code points translates character by character, SUB standing for what the code page lacks.", "quantifier": "all bytes and byte strings", "why_tests_cant": "a transposed table entry is invisible to spot checks; strings are unbounded", "anchors": ["parser_library/src/ebcdic_encoding.h: a2e, e2a", "parser_library/src/ebcdic_encoding.cpp: to_ascii, to_ebcdic, to_pseudoascii"]}
{"id": "C28", "title": "SET arrays behave like arrays", "statement": "After any sequence of SET statements, declarations, macro calls and returns (indices below 2^31), reading a SET symbol or an element of a SET array gives the value last assigned to it, or 0, false or the empty string if none was; a statement with several values assigns them to consecutive elements (all to the same symbol if it has no subscript, so the last one stays) and leaves all other elements and symbols alone; N' is the highest assigned index and K' the length of the value in bytes. An omitted operand takes no element.", "quantifier": "all histories of assignments, declarations, calls and returns", "why_tests_cant": "history dependent", "anchors": ["parser_library/src/context/variables/set_symbol.h: set_value, get_value, number"]}
{"id": "C29", "title": "Macro arguments are bound to the right parameters", "statement": "For every macro prototype and every call, no exception is raised and: the i-th positional parameter has the value of the i-th positional operand or is empty, a keyword parameter has the first operand given for it or else its default, the name field goes to the label parameter, &SYSLIST(i,..) is part of the i-th positional operand, &SYSLIST(0) the name field, N'&SYSLIST the number of positional operands, provided no parameter is called SYSLIST, and there are no other parameters. The value of an operand is the text it generates (C49; read with the proviso of C30 if it is a variable symbol or a keyword operand), except that X=... with X not a keyword of the macro is passed unchanged, without substitution.", "quantifier": "all prototypes, label fields and operand lists, all values of variable symbols, all subscripts", "why_tests_cant": "arbitrary prototypes and calls", "anchors": ["parser_library/src/context/macro.cpp: macro_definition, call"]}
{"id": "C30", "title": "Sublist operands keep their text", "statement": "Parsing an operand text always ends, and yields either the text as one value or a list. If the text has no empty item directly before a comma or a closing parenthesis, then printing the value gives the text back. For a list in which no empty item comes last or after an item of the form (..)xyz, N' is the number of items between the commas, &P(i) is the text of the i-th one, &P(i,j,..) the part at that path, and an item that does not exist reads as empty; N' of an item is 0 if it is empty or does not exist, the number of its own items if it is a list, and 1 otherwise; otherwise exactly those empty items are lost.", "quantifier": "all operand texts; for the items all nested lists of texts with balanced parentheses and quotes, all paths", "why_tests_cant": "unbounded nesting", "anchors": ["parser_library/src/processing/instruction_sets/macro_processor.cpp: string_to_macrodata, find_single_macro_param", "parser_library/src/context/macro_param_data.cpp"]}
{"id": "C31", "title": "&SYSNDX is unique and &SYSNEST is the nesting depth", "statement": "As long as a program does not itself assign &SYSNDX and &SYSNEST, each macro call sees the number of calls made before it as &SYSNDX, so no two calls see the same value and the values increase, with at least four digits; &SYSNEST is the number of active calls.", "quantifier": "all sequences of macro entries and exits", "why_tests_cant": "history dependent", "anchors": ["parser_library/src/context/hlasm_context.cpp: enter_macro, leave_macro, add_system_vars_to_scope"]}
{"id": "C32", "title": "OPSYN redefinitions", "statement": "After any sequence of OPSYN statements, macro definitions and macro calls, a mnemonic stands for the operation it was last given: an accepted OPSYN gives its label what the operand stands for at that moment and later changes of the operand do not alter it, a deleted mnemonic stands for nothing until it is given an operation again, other mnemonics are unaffected, rejected statements change nothing, and every statement runs exactly what its mnemonic stands for (or the library macro of that name when it stands for nothing). Macro definitions count as giving an operation as long as the name was not the label of an OPSYN before.", "quantifier": "all sequences of OPSYN operations", "why_tests_cant": "history dependent", "anchors": ["parser_library/src/context/hlasm_context.cpp: add_mnemonic, remove_mnemonic, get_operation_code"]}
{"id": "C33", "title": "Debugger stops exactly where it should", "statement": "In a debugged run, for a client that resumes the analysis only when it was told that it stopped: with continue execution stops only at statements with a breakpoint; with step over only at a breakpoint or at a statement not nested deeper than the start; with step in (or stop on entry) at the very next statement; at each such statement it does stop; and the statements are considered once each and in order. For every client whatever no statement is passed that a breakpoint set beforehand covers.", "quantifier": "all programs (statement sequences), all command sequences and all interleavings of the two threads", "why_tests_cant": "unbounded traces", "anchors": ["parser_library/src/debugging/debugger.cpp: statement/analyze, next, step_in, continue_debug"]}
{"id": "C34", "title": "Debugger commands never deadlock the session", "statement": "Under every interleaving of the analysis thread with the command thread, the two stand still only when the client has no command to work on and the analysis has not started, is over or sleeps; next, step in and disconnect make a waiting analysis go on; continue does if the analysis already sleeps when it is received; and disconnect ends the analysis from every state, without fault if the client was told of a stop and sent no resuming command since; after that the client is told nothing more.", "quantifier": "all programs, command sequences and interleavings", "why_tests_cant": "lost wake-ups are timing dependent", "anchors": ["parser_library/src/debugging/debugger.cpp: statement/analyze, continue_debug, next, step_in, disconnect"]}
{"id": "C35", "title": "Protocol numbering", "statement": "No two DAP messages carry the same sequence number; of the messages one thread sends each carries a greater number than all earlier ones, and a message carries a greater number than all messages already sent when its sending began, whichever threads sent them. Every response names the request it answers, and an LSP response handler runs at most as often as its request was sent. The debug adapter answers initialize, disconnect, setExceptionBreakpoints, configurationDone and threads exactly once each time they are requested; launch, setBreakpoints, stackTrace, scopes, next, stepIn, variables and continue exactly once if there is a debugger that carries the request out; and nothing else. A disconnect request, and nothing else, ends the session; it takes the debugger away, and only an initialize request brings one.", "quantifier": "all message histories and interleavings of the sending threads (below 2^64 messages)", "why_tests_cant": "history dependent", "anchors": ["language_server/src/dap/dap_server.cpp: respond, notify, send_message_", "language_server/src/lsp/lsp_server.cpp: message_received, register_response"]}
{"id": "C36", "title": "Server exit code", "statement": "The exit code is 0 or 1. It is 1 exactly when, before the end of the input was seen, the server loop noticed that an exit had been handled and no shutdown, and returned; in particular a client that sends shutdown before every exit always gets 0.", "quantifier": "all message sequences and all schedules of the three threads", "why_tests_cant": "unbounded message sequences", "anchors": ["language_server/src/dispatcher.cpp: run_server_loop", "language_server/src/lsp/lsp_server.cpp: on_shutdown, on_exit"]}
{"id": "C37", "title": "Conditional branching is bounded", "statement": "Conditional assembly always ends: from any state, with any statements, macro definitions and values, statement processing takes finitely many steps. In each macro call and in open code at most v+1 AIF/AGO jumps are taken after the branch counter was set to v (4096 at the start), the counters of different calls are independent, an exhausted counter leaves the macro (or ends open code) with a diagnostic, and macro calls never nest deeper than 100 levels.", "quantifier": "all programs of AIF, AGO, ACTR, MEXIT, macro calls and other statements, all macro definitions (recursive ones too), all values of the expressions, all states", "why_tests_cant": "unbounded executions", "anchors": ["parser_library/src/processing/processing_manager.cpp: jump_in_statements", "parser_library/src/context/hlasm_context.cpp: decrement_branch_counter"]}
{"id": "C38", "title": "AIF takes the first true branch and AGO the indexed one", "statement": "AIF jumps to the target of the first operand whose condition is true and otherwise falls through; AGO with value k jumps to its k-th target if there is one and otherwise falls through; malformed operand lists take no jump. A jump goes to the first statement with the target label in the macro or, forwards or backwards, in open code (provided that open-code labels are on statements that register them), and reports an error and continues with the next statement if there is none.", "quantifier": "all operand lists, all values, all macros and all open-code programs and reachable states", "why_tests_cant": "unbounded operand lists", "anchors": ["parser_library/src/processing/instruction_sets/ca_processor.cpp: prepare_AIF, process_AIF, prepare_AGO, process_AGO"]}
{"id": "C39", "title": "Token columns are UTF-16 columns", "statement": "Each token is reported on its line; its start and end columns are the numbers of UTF-16 code units before them on that line, provided that neither the text nor what stands at that position begins with a character outside the basic multilingual plane (what is reported otherwise is off by exactly one); highlighted comments, continuation characters and ignored text likewise, except that ignored text running over a line end ends in the code point column.", "quantifier": "all source texts, limited and unlimited lines", "why_tests_cant": "texts unbounded; only astral characters reveal an error", "anchors": ["parser_library/src/lexing/lexer.cpp: consume", "parser_library/src/lexing/token_stream.cpp"]}
{"id": "C40", "title": "AINSERT records are read back in order", "statement": "Whatever has been lexed of a source whose lines are all ended: AREAD returns the records inserted with AINSERT, FRONT before the others and in reverse order, BACK in order after them, padded to 80 characters, each exactly once, and then whole source lines in order beginning with the line in which the lexer stands; only empty records are refused.", "quantifier": "all sources with ended lines, all prefixes of their tokens, all sequences of AINSERT and AREAD", "why_tests_cant": "history dependent", "anchors": ["parser_library/src/lexing/lexer.cpp: ainsert_front, ainsert_back, aread"]}
{"id": "C41", "title": "No message takes the server down", "statement": "As long as textDocument messages name their document, error responses carry an id or a text, answers to the server's configuration requests are readable, initialize carries capabilities (and, for the debug adapter, the three members it reads), the server neither terminates abnormally nor executes undefined behaviour, and goes on accepting messages until exit or end of input; and these are exactly the messages that take the message handling down.", "quantifier": "all message sequences and schedules", "why_tests_cant": "unbounded message space; failures need malformed messages in particular states", "anchors": ["language_server/src/request_manager.cpp: get_request_file_", "language_server/src/lsp/lsp_server.cpp: message_received", "language_server/src/lsp/feature_workspace_folders.cpp: configuration", "language_server/src/main.cpp: main_program"]}
{"id": "C42", "title": "Every request is answered exactly once", "statement": "The server sends, in order, exactly one response for each message that names a supported request, has parameters and has a computable answer, carrying the id of that message; it sends no other response. Hence, if no notification is named like a request, exactly one response with its id for each servable request.", "quantifier": "all message histories", "why_tests_cant": "unbounded message histories", "anchors": ["language_server/src/server.cpp: call_method", "language_server/src/lsp/lsp_server.cpp: message_received, respond, respond_error", "language_server/src/lsp/feature_language_features.cpp"]}
{"id": "C43", "title": "Every line of a document can be read", "statement": "For every text and every line other than an empty last one, the text of the line, of the line up to the cursor, of a range between two positions, and the character before the cursor are exactly the corresponding part of the document.", "quantifier": "all texts, lines, positions", "why_tests_cant": "depends on where lines end and on characters of different width", "anchors": ["parser_library/src/lsp/text_data_ref_t.cpp: get_line, get_line_beginning, get_range_content", "parser_library/src/lsp/lsp_context.cpp: should_complete_instr"]}
{"id": "C44", "title": "Files that are not open are analysed as they are on disk", "statement": "A file that was never opened in the editor and is not written meanwhile has, in the file table and in every analysis that reads it, the contents of the disk with invalid UTF-8 replaced.", "quantifier": "all histories of editor messages, watched-file notifications and analyses, and all analysers", "why_tests_cant": "history dependent, interplay of many files", "anchors": ["parser_library/src/workspaces/file_impl.cpp: get_text, load_text", "parser_library/src/workspaces/processor_file_impl.cpp: parse, parse_macro", "parser_library/src/workspaces/file_manager_impl.cpp: add_processor_file"]}
{"id": "C45", "title": "Analyses are current", "statement": "After every message of an editor that changes and closes only what it has open, if no analysis was cancelled, the last analysis of each program saw, for every library file it depends on, the text this file has now (or nothing if the file was unreadable then).", "quantifier": "all message histories and all analysers", "why_tests_cant": "history dependent, dependency sets are arbitrary", "anchors": ["parser_library/src/workspaces/workspace.cpp: parse_file, did_close_file, filter_and_close_dependencies_, is_dependency_"]}
{"id": "C46", "title": "Feature requests are answered from an existing analysis", "statement": "In every such history, if no other component holds the file objects, definition, references, hover and completion requests about any file other than the configuration files are answered by an analysis that exists, always so for an open document; closing an open document never fails.", "quantifier": "all message histories and all analysers", "why_tests_cant": "absence of null dereference over all histories", "anchors": ["parser_library/src/workspaces/workspace.cpp: definition, references, hover, completion, find_related_opencodes", "parser_library/src/workspaces/processor_file_impl.cpp: get_lsp_feature_provider"]}
{"id": "C47", "title": "Comparisons and logical operators", "statement": "EQ, NE, LT, LE, GT and GE compare two numbers as numbers when their difference fits 32 bits; two texts of Latin-1 characters without NUL compare by length first and then by the EBCDIC collating sequence, EQ exactly when they are identical; AND, OR, XOR and NOT act bitwise on numbers and by truth table on logical values.", "quantifier": "all pairs of 32-bit integers; all pairs of Latin-1 texts without NUL", "why_tests_cant": "2^64 pairs of integers and unbounded texts", "anchors": ["parser_library/src/expressions/conditional_assembly/ca_operator_binary.cpp: compare_string, compare_relational, ca_function_binary_operator::operation", "parser_library/src/expressions/conditional_assembly/ca_operator_unary.cpp"]}
{"id": "C48", "title": "Local variable symbols are private, global ones shared", "statement": "A macro call, whatever it does before it returns, leaves the variable symbols of its caller that are not global unchanged. A symbol that is global in two scopes is the same symbol in both. A macro starts with its parameters and the system variables only. Declaring a global symbol that exists already binds to the existing one, whatever its type.", "quantifier": "all programs of assignments, declarations, calls and returns; all names and subscripts", "why_tests_cant": "a call can change anything reachable from it; aliasing of symbols between scopes arises only in particular histories", "anchors": ["parser_library/src/context/hlasm_context.h: create_global_variable, create_local_variable", "parser_library/src/context/hlasm_context.cpp: enter_macro, leave_macro, get_var_sym", "parser_library/src/processing/instruction_sets/ca_processor.h: process_GBL_LCL"]}
{"id": "C49", "title": "Text with variable symbols is generated faithfully", "statement": "Wherever text with variable symbols is generated (operands, labels, created names), each variable symbol is replaced by its value, a SETA value as its digits without sign and leading zeros and a SETB value as 0 or 1, one dot directly after a variable symbol is dropped, and all other text, sublists included, is kept as it is; the result is unique and always defined unless a SETA symbol holds -2147483648.", "quantifier": "all chains of text, variable symbols, dots, equal signs and nested sublists, all values of the symbols", "why_tests_cant": "unbounded texts and nesting", "anchors": ["parser_library/src/semantics/concatenation.cpp: evaluate", "parser_library/src/semantics/concatenation_term.cpp: var_sym_conc::evaluate, sublist_conc::evaluate", "parser_library/src/processing/instruction_sets/macro_processor.cpp: create_macro_data"]}
{"id": "C50", "title": "Debugger views are consistent with the stop", "statement": "While the client reads the call stack or the variables, the analysis does not change its state; what is shown belongs to the statement the analysis stopped at (the one it considered last); nothing is shown only before the first statement and after the end.", "quantifier": "all programs, command sequences and interleavings of the two threads", "why_tests_cant": "needs every interleaving of two threads", "anchors": ["parser_library/src/debugging/debugger.cpp: stack_frames, variables, scopes, statement/analyze"]}
{"id": "C51", "title": "Lexing always makes progress and ends", "statement": "Asking for the next token of a source text always returns, after at most one more piece of the text was lexed, and the end-of-file token is reached after finitely many tokens, exactly at the end of the text. (Records inserted with AINSERT are excluded: with something in column 72 the request can fail to return.)", "quantifier": "all texts of Unicode code points, limited and unlimited lines, every number of tokens taken before", "why_tests_cant": "a request that never returns is only met on the right combination of stream ends, columns and continuation characters", "anchors": ["parser_library/src/lexing/lexer.cpp: nextToken, lex_continuation, lex_comment, lex_process, consume", "parser_library/src/lexing/input_source.cpp"]}
{"id": "C52", "title": "Tokens cover the text without gaps", "statement": "The tokens of a source, visible and hidden, follow one another from the first character to the last and leave no character out; only the end of a logical line from which something was cut off is given twice, once as line end and once as ignored text.", "quantifier": "all texts, limited and unlimited lines, all prefixes of the token sequence", "why_tests_cant": "texts unbounded; every combination of token kinds, columns and line ends", "anchors": ["parser_library/src/lexing/lexer.cpp: create_token, lex_end, lex_continuation, lex_tokens"]}
{"id": "C53", "title": "The parser sees exactly the statement columns", "statement": "Outside of *PROCESS lines, a character is in a token the parser sees as statement text if and only if it is in columns 1-71 (16-71 of a continuation line) of a line that is not a comment and is no line end; comments go on as long as their column 72 is not blank. On *PROCESS lines nothing beyond column 72 is seen.", "quantifier": "all texts with limited lines", "why_tests_cant": "whether a line is a comment or a continuation depends on all lines before it", "anchors": ["parser_library/src/lexing/lexer.cpp: lex_tokens, lex_comment, lex_continuation, lex_process, is_process, lex_end"]}
{"id": "C54", "title": "Macro scopes of source lines", "statement": "For every file, a line is treated as part of a macro if and only if it belongs to that macro's definition (from the line of its name to its MEND) and not to a definition nested in it; all other lines are open code. This holds for definitions that are closed by their MEND and stand in one file; for all definitions closed in a file where another of their statements stands, the analysis ends without reading out of range.", "quantifier": "all numbers and orders of macros, all bodies with any nesting depth, all lines; COPY members for the absence of out-of-range reads", "why_tests_cant": "nesting and order of definitions are unbounded; the slices are computed from statement counts, not lines", "anchors": ["parser_library/src/processing/statement_processors/macrodef_processor.cpp: add_correct_copy_nest, process_MACRO, process_MEND", "parser_library/src/lsp/file_info.cpp: update_slices, transform_slice, find_scope", "parser_library/src/lsp/lsp_context.cpp: add_opencode, distribute_macro_i"]}
{"id": "C55", "title": "References are the occurrences of one symbol in one scope", "statement": "Asking for references at a position where one symbol is recorded gives exactly the places where the same symbol is recorded in its scope (everywhere for ordinary symbols, instructions and copy members; the macro or open code for variable and sequence symbols). For a statement of a macro the place itself is among them, and asking at any of the places of the same scope gives the same set. An answer is given for every file and position.", "quantifier": "all contexts built from any macros, copy members and open code; all positions", "why_tests_cant": "the set of occurrences, macros and files is unbounded", "anchors": ["parser_library/src/lsp/lsp_context.cpp: references, collect_references, find_occurence_with_scope", "parser_library/src/lsp/file_info.cpp: find_occurence_with_scope, is_in_range", "parser_library/src/processing/statement_analyzers/lsp_analyzer.cpp: analyze, macrodef_finished"]}
{"id": "C56", "title": "Go to definition and completion of symbols", "statement": "In a macro the definition of a variable symbol is its first declaration or assignment by a statement of the macro itself (parameters first), that of a sequence symbol the first statement that has it, that of a macro call the name in the prototype; in open code they are those of the analysis; otherwise the position itself is the answer. Completion in a macro offers exactly the symbols the macro declares, sets or has as labels, each once, provided the analysis has ended.", "quantifier": "all macros closed in one file, all nesting, all positions", "why_tests_cant": "bodies, nesting and numbers of symbols are unbounded", "anchors": ["parser_library/src/lsp/lsp_context.cpp: definition, find_definition_location, complete_var, complete_seq", "parser_library/src/processing/statement_processors/macrodef_processor.cpp: add_SET_sym_to_res, process_sequence_symbol"]}
{"id": "C57", "title": "Symbols of a statement are found", "statement": "From each statement exactly the ordinary, variable and sequence symbols are collected that stand in its label, operation and operands outside of strings, subscripts and lists in assembler operands; a statement without such places gives all its symbols. No null pointer is used unless a variable symbol is written as &(); the operand of COPY is recognised exactly if it is one symbol.", "quantifier": "all statements with operands of any kind and expressions of any depth", "why_tests_cant": "operand trees are unbounded", "anchors": ["parser_library/src/processing/statement_analyzers/occurence_collector.cpp: occurence_collector", "parser_library/src/processing/statement_analyzers/lsp_analyzer.cpp: collect_occurences, collect_copy_operands"]}
{"id": "C58", "title": "A data definition is read as it is written", "statement": "A DC or DS operand written in the order of the language (duplication factor, type, type extension, modifiers P, L, S, E with numbers or expressions, nominal value), in any mixture of upper and lower case, is read back field by field without diagnostics, provided an exponent modifier does not follow the type at once. An operand read without diagnostics was written that way, but for modifiers without a value. Reading any operand ends without using an expression or a nominal value that is not there.", "quantifier": "all operands, numbers of any number of digits, any expressions and nominal values", "why_tests_cant": "texts and numbers are unbounded", "anchors": ["parser_library/src/expressions/data_definition.cpp: data_definition::parser", "parser_library/src/expressions/data_definition.h: data_definition::create"]}
{"id": "C59", "title": "Storage of data definition statements", "statement": "A DC or DS statement with acceptable operands begins at the next address on the boundary of its first operand and reserves the bytes up to the end of its operands laid out one after the other, each on its boundary, provided the boundaries of the others divide that address (in any case the layout from address 0). A statement without a label that has an operand that is not acceptable reserves nothing and is reported.", "quantifier": "all statements of operands of all types, all locations, all values of fields, nominal values of up to 8191 characters or expressions", "why_tests_cant": "the values, numbers and combinations of operands are unbounded", "anchors": ["parser_library/src/checking/data_definition/data_definition_operand.h: get_operands_length", "parser_library/src/checking/data_definition/data_def_type_base.cpp: get_length, get_nominal_length", "parser_library/src/processing/instruction_sets/asm_processor.cpp: process_data_instruction", "parser_library/src/processing/instruction_sets/data_def_postponed_statement.h: get_operands_length"]}
{"id": "C60", "title": "Data definition operands are accepted exactly when right", "statement": "Checking an operand of DC or DS never throws; it is accepted exactly if its duplication factor, length, scale and exponent are in the ranges of its type, its nominal value has the form the type wants in every value, it is present when needed and the length fits, provided the length of a type A or Y is given together with a nominal value. An operand is rejected exactly if an error is reported; a statement is accepted exactly if all its operands are and the whole is smaller than 2 GiB.", "quantifier": "all types and extensions, all 32-bit values of the fields, all nominal values of up to 8191 characters or expressions", "why_tests_cant": "nominal values are unbounded texts; the fields are 32-bit numbers", "anchors": ["parser_library/src/checking/data_definition/data_def_type_base.cpp: check, check_base, check_length, check_nominal_present", "parser_library/src/checking/data_definition/data_def_types_fixed_point.cpp: check_impl", "parser_library/src/checking/data_definition/data_def_types_floating_point.cpp: check_impl", "parser_library/src/checking/data_definition/data_def_types_string.cpp: check_impl", "parser_library/src/checking/data_definition/data_def_types_address.cpp: check_impl", "parser_library/src/checking/checker_helper.h: check_number, check_exponent", "parser_library/src/checking/data_instruction.cpp: check_data"]}
{"id": "C61", "title": "Attributes of data definition labels", "statement": "The label of a DC or DS statement with acceptable operands gets the type attribute of the type, the length attribute of the first value, the integer attribute that follows from length and scale, and the scale written or 0, provided the first value of a type B or X is written without spaces and so are the decimals of a type P or Z.", "quantifier": "all statements of operands of all types", "why_tests_cant": "the values of fields and nominal values are unbounded", "anchors": ["parser_library/src/checking/data_definition/data_def_type_base.cpp: get_length_attribute, get_scale_attribute, get_integer_attribute", "parser_library/src/expressions/data_definition.cpp: get_type_attribute", "parser_library/src/processing/instruction_sets/asm_processor.cpp: process_data_instruction"]}
{"id": "C62", "title": "Operands of machine instructions", "statement": "The operands of a machine instruction are accepted exactly when their number is one the instruction can have and each has the form and a value that the operand at its place allows (an index or length written alone in the parentheses is allowed any value); otherwise there is one diagnostic about the number naming the right numbers, or one true diagnostic for each wrong operand in their order. An extended mnemonic of an instruction without optional operands is accepted exactly when the operands it stands for are. While an operand is undefined the statement is not accepted and the first such operand is named. Every check comes to a verdict, except that of two operands of WFCSB, WFCDB, WFCXB, WFKSB, WFKDB and WFKXB.", "quantifier": "all instructions and extended mnemonics of the tables, all lists of operands of all forms and values", "why_tests_cant": "1355 instructions, 945 mnemonics and unbounded operand values", "anchors": ["parser_library/src/context/instruction.cpp: machine_instruction::check, get_machine_instructions, get_mnemonic_codes", "parser_library/src/checking/instr_operand.cpp: machine_operand", "parser_library/src/processing/instruction_sets/low_language_processor.cpp: check, transform_mnemonic, transform_default", "parser_library/src/semantics/operand_impls.cpp: get_operand_value"]}
{"id": "C63", "title": "Storage and encoding of machine instructions", "statement": "A machine instruction takes up two, four or six bytes according to its format, from the next even location on; its label denotes that location, has that length and type I; the location counter symbol in its operands denotes the location before the alignment. Operation code and operands fit into these bytes for every instruction of the table except XC, STFLE, CLT and CLGT, and the operands are those of the format in the architecture except for these four and BASSM, EXRL, LHRL, LGHRL, CLIY and MVIY.", "quantifier": "all states of the location counter reachable by statements, all lengths of areas known later, all instructions of the table", "why_tests_cant": "the location counter has unboundedly many states; the table is too large to test by hand", "anchors": ["parser_library/src/processing/instruction_sets/mach_processor.cpp: process", "parser_library/src/processing/instruction_sets/low_language_processor.cpp: preprocess_inner", "parser_library/src/context/instruction.h: get_length_by_format", "parser_library/src/context/instruction.cpp: get_machine_instructions"]}
{"id": "C64", "title": "Symbols are defined once; sections and location counters are resumed", "statement": "An ordinary symbol has the definition of the first statement that defines it: the start of a new section or LOCTR, the value of EQU, the aligned location of a machine instruction or data definition, the location of ORG or of EXTRN (first operand). Nothing later changes or removes it, except that a value or a length that is not known yet can become known. A statement whose label is defined already is reported with E031 and does what it does without the label (a section, EQU or LOCTR statement does nothing); E031 is reported in no other case. A statement changes at most the location counter that is current; coming back to a section with its name resumes it with the counter it was left with, in the state it was left in, and LOCTR makes the counter of its name, and its section, current. A name other than the empty one belongs to one counter, and the symbol of that name is its start. The analysis is interrupted only by EXTRN of a symbol that is defined and by ORG to an expression that is no address.", "quantifier": "all programs of section, LOCTR, EQU, machine, data, ORG and EXTRN statements, with any storage operations, expressions and dependencies", "why_tests_cant": "programs switch between any number of sections and counters in any order; tests fix a few orders", "anchors": ["parser_library/src/context/ordinary_assembly/ordinary_assembly_context.cpp: create_symbol, set_section, set_location_counter, section_defined, counter_defined, align, reserve_storage_area", "parser_library/src/context/ordinary_assembly/section.cpp: set_location_counter", "parser_library/src/processing/instruction_sets/asm_processor.cpp: process_sect, process_LOCTR, process_EQU, process_EXTRN, process_ORG, process_data_instruction", "parser_library/src/processing/instruction_sets/mach_processor.cpp: process"]}
{"id": "C65", "title": "Operands of EQU and ORG", "statement": "EQU of a value gives its symbol that value (the address, if only the offset of an address is unknown; undefined, if it waits for symbols), the type attribute of the third operand when that is known, absolute and 0 to 255, otherwise U, and the length attribute of the second operand when that is known, absolute and 0 to 65535, otherwise that of the leftmost symbol of the value as far as it is known, otherwise 1; operands that are present and not so are reported with A134 and A133, and in no other case. ORG moves the current counter, to the next free location without an address and to the address otherwise, with the boundary and displacement given, exactly when its operands in front of the first that is no expression are right: an address, a power of two from 2 to 4096, an absolute known value; the first wrong one is reported with A245, A116 or A115 and nothing moves. An address outside the current counter is reported and nothing moves. An operand that is no expression is reported. With a label, ORG acts after its label is defined.", "quantifier": "all states, all lists of operands of any values, all location counters", "why_tests_cant": "operand values and dependencies are unbounded", "anchors": ["parser_library/src/processing/instruction_sets/asm_processor.cpp: process_EQU, process_ORG, try_get_abs_value", "parser_library/src/processing/instruction_sets/low_language_processor.cpp: check_address_for_ORG, create_symbol", "parser_library/src/context/ordinary_assembly/dependency_collector.cpp: is_address, contains_dependencies"]}
{"id": "C66", "title": "COPY members are read in place", "statement": "Source in which COPY members are named, without branches, macros and attribute references, is processed to its end exactly as if the statements of each member stood behind the COPY that names it; a member that is missing or already being read is reported and skipped. Members being read are always different ones, so nesting never exceeds the number of members in the library, whatever branches and lookaheads do. Provided COPY statements carry no ordinary name and their operands are expressions, no position outside a member, missing operand or missing member is ever accessed. Provided no instruction field refers to an attribute, the line counter of open code is that of the next statement after every step.", "quantifier": "all programs, libraries, macro definitions and numbers of processing steps", "why_tests_cant": "unbounded nesting of members, lookaheads that leave in the middle of a member and jumps back into it", "anchors": ["parser_library/src/processing/opencode_provider.cpp: next, rewind_input, convert_ainsert_buffer", "parser_library/src/context/copy_member.cpp", "parser_library/src/processing/instruction_sets/asm_processor.cpp: process_COPY, common_copy_postprocess", "parser_library/src/context/hlasm_context.cpp: enter_copy_member, leave_copy_member, get_current_copy_stack, apply_source_snapshot", "parser_library/src/context/source_context.cpp: create_snapshot"]}
{"id": "C67", "title": "A lookahead ends, returns and finds the first definition", "statement": "Provided COPY statements carry no ordinary name, have expressions as operands and the library is finite: a lookahead started by a statement that refers to attributes of undefined symbols ends; processing then continues at the statement that started it with nothing changed but what is known of symbols, and each symbol it looked for has the attributes of the first statement named by it, outside macro definitions and in reading order from where the lookahead began, or the unknown attributes if there is none. A branch to a sequence symbol of open code that is not known yet ends in front of a statement with this symbol if one is found in reading order, and otherwise is reported and processing continues behind the branch; a branch to a known one arrives at a statement with it. No symbol is looked for twice, provided every named statement of the text has attributes.", "quantifier": "all programs, libraries, macro definitions, attribute demands and numbers of steps", "why_tests_cant": "termination and the place to return to depend on arbitrary nesting of members, macros and earlier lookaheads", "anchors": ["parser_library/src/processing/statement_processors/lookahead_processor.cpp", "parser_library/src/processing/statement_processors/ordinary_processor.cpp: check_postponed_statements, provide_statement", "parser_library/src/processing/processing_manager.cpp: start_lookahead, finish_lookahead, jump_in_statements, register_sequence_symbol, perform_opencode_jump", "parser_library/src/processing/attribute_provider.cpp", "parser_library/src/processing/opencode_provider.cpp"]}
{"id": "C68", "title": "An assembler instruction is accepted silently or rejected with one report", "statement": "The check of an assembler instruction either accepts it and reports nothing, or rejects it with exactly one report at the statement, one of its operands, a parameter of one, or the first two operands; it never ends undefined. Excepted are: ALIAS of another form than C'...' or X'...', an ADATA text without apostrophes, empty names and a lone & in DROP, DXD, and in *PROCESS the words PUSH, PU, RECORD, RC of FLAG, code pages that are not acceptable and hexadecimal limits of 2^64 or more.", "quantifier": "all operand lists of the checked instructions, all texts and values", "why_tests_cant": "the checks are some 50 functions with nested operands of any number; tests try single operand lists", "anchors": ["parser_library/src/checking/asm_instr_class.cpp", "parser_library/src/checking/asm_instr_check.cpp", "parser_library/src/checking/instruction_checker.cpp: assembler_checker::check"]}
{"id": "C69", "title": "An assembler instruction accepts exactly the operands of its description", "statement": "For every assembler instruction the operands accepted are exactly those of a description that is independent of the checks (words, value ranges, lengths, powers of two, dates, nested options); names outside the table are rejected. The descriptions record where the checks differ from the assembler: START and SPACE reject 0, PUNCH takes 79 characters, AINSERT 78, ICTL with one operand at most column 15, DROP no national characters, ALIAS no hexadecimal form, FAIL no parameters with values, OPTABLE the empty text, CODEPAGE values modulo 2^32, WARN texts after a number and LIMIT negative numbers.", "quantifier": "all operand lists and all instruction names", "why_tests_cant": "the sets accepted are infinite and the rejected ones are their complement", "anchors": ["parser_library/src/checking/asm_instr_class.cpp", "parser_library/src/checking/asm_instr_check.cpp", "parser_library/src/checking/asm_instr_check.h", "parser_library/src/checking/instruction_checker.cpp: initialize_assembler_map"]}
{"id": "C70", "title": "Reports about assembler instructions are in the source", "statement": "For operands as in C68, every report about a statement is at the statement, at one of its operands, at a part of an operand that has no parts itself, or covers the first two operands; or it has no place at all, which needs a part that has parts itself.", "quantifier": "all statements of instructions without processing of their own, nested to any depth", "why_tests_cant": "nesting is not bounded", "anchors": ["parser_library/src/semantics/operand_impls.h: create_operand", "parser_library/src/semantics/operand_impls.cpp: get_operand_value", "parser_library/src/processing/instruction_sets/low_language_processor.cpp: check, transform_default"]}
{"id": "C71", "title": "Operands of assembler instructions are read one by one", "statement": "A statement of an assembler instruction is left unchecked exactly if the instruction takes symbols for values and some operand depends on symbols that are not defined; otherwise its operands are read one by one in exactly one way (the value of an expression, the text of a symbol where symbols are names, 0 for an address, a string with its apostrophes, parts of any depth), and it is accepted exactly if the operands read meet the description of C69.", "quantifier": "all statements and states of symbols", "why_tests_cant": "states of symbols and nested operands are unbounded", "anchors": ["parser_library/src/processing/instruction_sets/asm_processor.cpp: process(rebuilt_statement)", "parser_library/src/processing/instruction_sets/low_language_processor.cpp: transform_default", "parser_library/src/semantics/operand_impls.cpp", "parser_library/src/context/instruction.cpp: has_ord_symbols"]}
{"id": "C72", "title": "The number of operands is checked against the table of instructions", "statement": "For every assembler instruction of the table except DC, DS, EQU and ISEQ, a number of operands outside the range of the table is rejected with exactly one report at the statement, whose code says at least, exactly, one of two or between; a number inside the range never causes such a report. CEJECT, SPACE and START also take a single comma. ISEQ takes none or two operands.", "quantifier": "all instructions of the table and all operand lists", "why_tests_cant": "the table and the checks are two independent lists; operand lists are unbounded", "anchors": ["parser_library/src/context/instruction.cpp: assembler_instructions", "parser_library/src/checking/asm_instr_class.h: operands_size_corresponding", "parser_library/src/checking/instruction_checker.cpp"]}
{"id": "C73", "title": "Attributes of ordinary symbols", "statement": "For every attribute letter and every symbol, an attribute reference to an ordinary symbol has exactly one value and set of reports: T' is the type character of the symbol, U for an unknown one; L' its length; S' and I' the scale and integer attribute of a symbol that names a constant of type D E F G H K L P or Z; D' tells whether the symbol is defined (what a lookahead found does not count); O' is M for a macro, otherwise A, E or O by the kind of instruction, otherwise S if the library has a member of that name, otherwise U. An attribute that is not known gives 1 for L' and 0 for S' and I' with warning W013; S' and I' of other symbols, K' and N' are error E066 with value 0. Whenever something is reported it is one report and the value is the default one. A lookahead's finding counts only until the symbol is defined.", "quantifier": "all contexts (symbols, lookahead findings, macros, instructions, library), all attribute letters, all names", "why_tests_cant": "each combination of attribute, symbol origin, type and defined parts is a different case; tests sample a few", "anchors": ["parser_library/src/expressions/conditional_assembly/terms/ca_symbol_attribute.cpp: evaluate_ordsym, retrieve_value", "parser_library/src/context/hlasm_context.cpp: get_attribute_value_ca, get_opcode_attr", "parser_library/src/context/ordinary_assembly/symbol_attributes.cpp"]}
{"id": "C74", "title": "T', K' and N' of variable symbols", "statement": "T' of a scalar SETC symbol, of a macro parameter or part of one, and of an operand in SYSLIST is O for the empty text, N for a self-defining term, the type of the symbol the text starts with if that is known, U otherwise; T' of arithmetic and Boolean variables is N; T' of a list is that of its first text as far as symbols defined so far tell it, otherwise that of the symbol the written list starts with. (T' of an element of a SETC array is NOT that of its text: the element after it is looked at first; refuted, with the rule that holds.) K' is the length of what the variable stands for (decimal digits and sign for a number; NOT for SYSLIST and SYSMAC without subscript, refuted); N' is the number of elements of a parameter or part of one, and of SYSLIST the number of operands. Subscripts that do not fit are reported once by T' and K' and never by N'; an unknown variable is E010 with the default value.", "quantifier": "all contexts, all variables (SET symbols, parameters of any nesting, SYSLIST, SYSMAC), all subscripts of 32 bits, texts shorter than 2^31", "why_tests_cant": "the value depends on nested lists, subscripts at any depth and the state of the symbol table", "anchors": ["parser_library/src/expressions/conditional_assembly/terms/ca_symbol_attribute.cpp: evaluate_varsym", "parser_library/src/context/hlasm_context.cpp: get_type_attr", "parser_library/src/context/variables/macro_param.cpp", "parser_library/src/context/variables/system_variable.cpp", "parser_library/src/context/variables/set_symbol.h"]}
{"id": "C75", "title": "D', L', O', S' and I' of variable symbols", "statement": "These attributes of a variable symbol are those of the symbol its text starts with: any number of parentheses around the whole text and any number of qualifiers are left out, and the symbol ends at the end of the text, an operator or a parenthesis. A text that starts with no symbol is E065 and a number E066 with the default value (O' gives U without a report); subscripts that do not fit are reported at the variable and as E066 at the reference. The behaviour is undefined exactly when the text is empty or consists of matching parentheses only (the first character of an empty string is read), so the references are not safe for every text (refuted).", "quantifier": "all contexts, variables, subscripts and texts", "why_tests_cant": "the set of texts is infinite and the parenthesis and qualifier rules interact", "anchors": ["parser_library/src/expressions/conditional_assembly/terms/ca_symbol_attribute.cpp: try_extract_leading_symbol, evaluate_substituted", "parser_library/src/processing/context_manager.cpp: get_var_sym_value, test_symbol_for_read, try_get_symbol_name"]}
{"id": "C76", "title": "Lookaheads are asked for what an attribute reference needs", "statement": "A lookahead is started only for symbols that are neither defined nor found yet and only by T', L', S' and I'. If none is started, nothing that further lookaheads find changes the value or the reports of the reference, provided that the text of the variable symbol in it, if any, is a symbol itself or starts with none. (Without the proviso this is refuted: for L'&X with X=FIELD+2 or X=(FIELD) no lookahead is started although the value depends on FIELD.)", "quantifier": "all contexts and all extensions of what lookaheads found, all references", "why_tests_cant": "the claim compares the evaluation in two contexts, for all contexts", "anchors": ["parser_library/src/expressions/conditional_assembly/terms/ca_symbol_attribute.cpp: get_undefined_attributed_symbols"]}
{"id": "C77", "title": "Reports and references in macro operands point at the operand in the source", "statement": "The operands of a macro call are joined into one line and read again. Whatever is found in that line behind j characters of an operand is placed behind the same j characters of the operand in the source, on the line and column they are written at, also when the operand continues on further lines, provided that the operands before it each stand on one line; a place is found for every column of the joined line and no operand beyond the last one is looked at. What results from a substitution is placed at the whole field it was made in, and the range of a field made of several parts is the smallest one containing them. (Refuted without the provisos: the first character of a continued line is placed behind the end of the line before it, and behind an operand that continues on another line places are 16 columns off for every line it continues on.)", "quantifier": "all operand lists, texts, lines and columns", "why_tests_cant": "operands, their lengths and the points where lines are continued combine without bound", "anchors": ["parser_library/src/semantics/range_provider.cpp: adjust_position, adjust_range, union_range", "parser_library/src/parsing/parser_impl.cpp: parse_macro_operands, parse_operand_field"]}
{"id": "C78", "title": "A completion request offers what belongs at the cursor", "statement": "For every document and position: behind '&' variable symbols are offered and behind '.' sequence symbols; otherwise instructions are offered exactly if the line above is not continued (column 72 blank) and the text in front of the cursor is blanks and a possibly empty word, or two characters other than '*', non-blanks, blanks and a non-empty word. Hence they are offered in the operation field of a line without label, behind a label of two or more characters once the first character is typed, and never in a comment; and nowhere but in the operation field if the first two characters are not blank or the second and third are. (Refuted without these provisos: they are offered in operand fields behind one or two leading blanks, and not offered behind a label of one character and one blank nor right behind a label; on a new line at the end of a document the request ends with an exception.)", "quantifier": "all texts, lines, columns and trigger characters", "why_tests_cant": "the decision is that of a regular expression over unbounded lines", "anchors": ["parser_library/src/lsp/lsp_context.cpp: completion, should_complete_instr, is_continued_line"]}
{"id": "C79", "title": "The documentation of a macro is its prototype and the comments around its header", "statement": "For every document and macro definition in it, the documentation shown on hovering over the name of the macro and in completion consists of the prototype with all lines it is continued on, the comment lines directly above the MACRO statement and those directly below the prototype, up to the first line of another kind on either side, and there is no exception if the document does not end with an empty line. The signature consists of the label parameter, the name, the positional parameters that have a name and the keyword parameters with their defaults, in order. (Refuted without the proviso: for a prototype that is the last line of a document ending with a new line an exception ends every completion of instructions.)", "quantifier": "all documents, all macro definitions", "why_tests_cant": "comment blocks and continuations are unbounded", "anchors": ["parser_library/src/lsp/lsp_context.cpp: get_macro_documentation, get_macro_signature, is_comment"]}
{"id": "C80", "title": "Operations are described by their own operands", "statement": "No two operations that are offered have the same name, and the names offered are exactly those of the machine, mnemonic, assembler and conditional assembly tables; hovering over an operation shows the description of that operation and nothing for other names. The description of a machine instruction lists its operands in order with the operand that may be left out in brackets; that of a mnemonic lists the operands to be written and the operands of its instruction with the values the mnemonic stands for. (Refuted: with two operands that may be left out the brackets in the text shown on hovering do not match (IPTE); the needed operands of mnemonics are missing if the instruction has an operand that may be left out (VFAEB).)", "quantifier": "all instructions and mnemonics, all operand lists", "why_tests_cant": "the claims compare texts made by two loops with the tables, over all of both tables and any extension of them", "anchors": ["parser_library/src/lsp/completion_item.cpp: instruction_completion_items_", "parser_library/src/lsp/lsp_context.cpp: find_hover", "parser_library/src/checking/instr_operand.cpp: parameter::to_string, machine_operand_format::to_string"]}
{"id": "C81", "title": "Machine operands have one reading, with the usual precedence", "statement": "The operand field of a machine instruction is divided at the commas outside parentheses, up to the first space; an operand is an expression or one of D(B), D(X,B), D(,B), D(X,), or is omitted. In expressions * and / come before + and -, operators of one rank are applied from left to right, a sign belongs to the term behind it, and an asterisk where a term is expected is the location counter. Exactly the fields written this way are accepted, every field has one reading, and each operation, operand and omitted operand gets the range from its first to its last token.", "quantifier": "all token sequences, all expression trees of any depth, all operand lists, all positions", "why_tests_cant": "The grammar has unbounded nesting, an operator that is also a term, and optional parts; tests see a few expressions, ambiguity shows only for the sequences nobody wrote down.", "anchors": ["parser_library/src/parsing/grammar/machine_expr_rules.g4: mach_expr, mach_expr_s, mach_term_c, mach_term", "parser_library/src/parsing/grammar/machine_operand_rules.g4: mach_op", "parser_library/src/parsing/grammar/operand_field_rules.g4: op_list_mach, operand_mach", "parser_library/src/semantics/range_provider.cpp: get_range"]}
{"id": "C82", "title": "Assembler operands have one reading", "statement": "Each operand of an assembler instruction is read as an expression, a string, name(components), (word,word,word), (base,end), or omitted; components are strings, symbols, numbers, name(components) of any depth, or omitted. Exactly the fields written this way are accepted, every field has one reading - in particular the alternatives that start with a parenthesis or with a name exclude each other - and operands and components get the ranges of their tokens.", "quantifier": "all token sequences, all component lists of any depth, all positions", "why_tests_cant": "Three alternatives start with a parenthesis and two with a name; that no input fits two of them is a statement about all inputs.", "anchors": ["parser_library/src/parsing/grammar/assembler_operand_rules.g4: asm_op, asm_op_inner, asm_op_comma_c, end_instr_word", "parser_library/src/parsing/grammar/operand_field_rules.g4: op_list_asm, operand_asm"]}
{"id": "C83", "title": "Macro call operands have one reading and the value of their text", "statement": "The operands of a macro call are words, apostrophes after attribute letters, strings and lists in parentheses, nested to any depth, with commas between them. Exactly the texts written this way are accepted, and every one has one reading: the commas that are in no string and no list separate operands. Without variable symbols, a positional operand has as its value nothing if it is omitted, the values of its items if it is one list in parentheses - as many as there are commas plus one, omitted ones included - and its text otherwise, and the text of the whole value is that of the source. A keyword operand gets the value that the text after the equals sign has as a positional operand, provided it is one list or does not both begin with an opening and end with a closing parenthesis.", "quantifier": "all token sequences, all trees of strings and lists, all macro definitions", "why_tests_cant": "Lists nest to any depth and strings may hold commas, quotes and parentheses; the reading of every such text cannot be enumerated.", "anchors": ["parser_library/src/parsing/grammar/macro_operand_rules.g4: macro_ops, mac_op_o, mac_entry, mac_ch, mac_str, mac_sublist", "parser_library/src/processing/instruction_sets/macro_processor.cpp: get_operand_args, create_macro_data"]}
{"id": "C84", "title": "Macro operands over several lines", "statement": "A macro call gets the same operands however they are spread over continued lines: after any comma a line may end, with or without a remark, and the next line goes on with the next operand or in the middle of a list; what follows the last operand is a remark. A comma at the very end is followed by an omitted operand.", "quantifier": "all layouts of all operand lists, with lists cut at any comma", "why_tests_cant": "The number of ways to break operands into lines grows exponentially with the number of commas; the operands are read twice, and that both readings agree for all of them is not a finite check.", "anchors": ["parser_library/src/parsing/grammar/operand_field_rules.g4: op_rem_body_alt_mac, cont_mac, cont_body_mac", "parser_library/src/parsing/parser_impl.cpp: parse_macro_operands"]}
{"id": "C85", "title": "What a macro definition holds", "statement": "A macro definition has the name of its prototype and is made of the statements from there to its own MEND, definitions inside included, in order and each once; what follows the MEND is not part of it, and without a MEND the definition takes the rest of the text and is reported. Its sequence symbols are those of its own statements and not of the definitions inside: the first one with a name counts and leads to the statement that has it, each later one is reported. A library member with at least two statements defines a macro exactly if it starts with MACRO and a prototype with the name of the member, and then the same as in open code; otherwise there is one report and no macro. A blank prototype, and a member without one, are excepted.", "quantifier": "all texts with definitions nested to any depth, all names and labels", "why_tests_cant": "Nesting is unbounded and labels may be repeated at every depth; whether each branch goes to the statement meant depends on all statements before.", "anchors": ["parser_library/src/processing/statement_processors/macrodef_processor.cpp: process_statement, process_prototype, process_MACRO, process_MEND, process_sequence_symbol, end_processing", "parser_library/src/processing/processing_manager.cpp: finish_macro_definition, start_processing"]}
{"id": "C86", "title": "Copy members are taken whole or not at all", "statement": "A copy member in which every MACRO has its MEND is copied with all its statements, in order, without a report. Any other member is reported and copied as if it were empty.", "quantifier": "all members", "why_tests_cant": "MACRO and MEND may be nested to any depth and in any order.", "anchors": ["parser_library/src/processing/statement_processors/copy_processor.cpp: process_statement, process_MACRO, process_MEND, end_processing", "parser_library/src/processing/processing_manager.cpp: finish_copy_member"]}
{"id": "C87", "title": "Statements of macros that are read again", "statement": "Statements of a member that are conditional assembly, COPY or blank are read at once when the member is; any other is read when it is used. Each time it then has the operands that its text has as an instruction of the kind it is used as, whatever it was used as before, provided the operations of that kind it was used with before all take operands, or all take none, as this one, and it is no conditional assembly; a name whose meaning does not change meets this however often the statement is read.", "quantifier": "all texts, all sequences of operations that a statement is used with, all instruction tables", "why_tests_cant": "What one call gives depends on all calls before it, as readings are kept; the sequences of uses are unbounded.", "anchors": ["parser_library/src/processing/statement_providers/members_statement_provider.cpp: preprocess_deferred, fill_cache", "parser_library/src/context/statement_cache.cpp", "parser_library/src/processing/statement_processors/macrodef_processor.cpp: get_macro_processing_status", "parser_library/src/processing/statement_processors/ordinary_processor.cpp: get_processing_status, get_instruction_processing_status"]}
{"id": "C88", "title": "Conditional assembly operands have one reading", "statement": "The operand field of a conditional assembly statement (SETx, AIF, AGO, ACTR, LCLx, GBLx) is accepted exactly when it is a sequence of operands of the language: expressions with signs, * and / before + and - and grouping from the left, lists in parentheses, variable symbols with subscripts, attributes, strings with duplication factor and substring joined by periods, function calls, branch operands, sequence symbols, names with a size; omitted operands included. If the items of each list are separated by spaces and no duplication factor is written directly in an item of a list, it is read as exactly the operands written, so there is one reading. Otherwise the reading is one of those the grammar has, and may not be the intended one; what has no reading is taken as a remark.", "quantifier": "all operand fields, of any length and nesting, as sequences of tokens", "why_tests_cant": "The grammar is ambiguous and read with unbounded lookahead; tests try a few expressions, not every nesting of lists, subscripts and strings behind every prefix.", "anchors": ["parser_library/src/parsing/grammar/ca_expr_rules.g4:expr", "parser_library/src/parsing/grammar/ca_expr_rules.g4:expr_list", "parser_library/src/parsing/grammar/ca_expr_rules.g4:ca_string", "parser_library/src/parsing/grammar/ca_operand_rules.g4:ca_op", "parser_library/src/parsing/grammar/operand_field_rules.g4:op_rem_body_ca"]}
{"id": "C89", "title": "Model operands are the written text with the values put in", "statement": "An operand field of a machine or assembler instruction that contains variable symbols ends before the first blanks that are not between apostrophes, and what is parsed again as operands is its text with each variable symbol replaced by its value, a full stop directly behind a variable symbol dropped, and every other character as written; this is so whenever no two apostrophes stand side by side and there is no double ampersand. Without attribute references a field is accepted exactly when its apostrophes are paired and it has a variable symbol. With doubled apostrophes or ampersands in an operand other than the one with the first variable symbol one of the two is lost.", "quantifier": "all operand fields, as sequences of tokens of any length, and all values of the variable symbols", "why_tests_cant": "Three different string rules apply before, at and behind the first variable symbol, and strings, attributes and remarks compete for apostrophes; tests fix a few fields and values.", "anchors": ["parser_library/src/parsing/grammar/model_operand_rules.g4:model_op", "parser_library/src/semantics/concatenation.cpp:concatenation_point::evaluate", "parser_library/src/semantics/concatenation.cpp:concatenation_point::clear_concat_chain", "parser_library/src/processing/instruction_sets/low_language_processor.cpp:preprocess_inner"]}
{"id": "C90", "title": "A label is the text up to the first blanks, with the values put in", "statement": "A label that does not begin with an apostrophe is the text up to the first blanks. Without variable symbols it is a sequence symbol if it begins with a full stop and has more characters, an ordinary symbol if it is one ordinary symbol, and otherwise a text that only macros accept. With variable symbols it is accepted exactly when the number of its apostrophes is even, and it stands for its text with the values substituted and a full stop directly behind a variable symbol dropped, for machine and assembler instructions as the symbol to define and for macros as the argument of the name field. Whatever the label begins with, nothing of its text is lost. A single variable symbol whose value is empty or begins with a blank is no label; with anything else around it an empty result is an invalid name instead.", "quantifier": "all statements as sequences of tokens, all values of the variable symbols", "why_tests_cant": "Many rules with overlapping alternatives distinguish labels with and without blanks, apostrophes and variables; tests try single examples of some of them.", "anchors": ["parser_library/src/parsing/grammar/label_field_rules.g4:label", "parser_library/src/parsing/grammar/label_field_rules.g4:l_model", "parser_library/src/parsing/grammar/label_field_rules.g4:l_model_sp", "parser_library/src/semantics/collector.cpp:collector::set_label_field", "parser_library/src/processing/instruction_sets/low_language_processor.cpp:preprocess_inner", "parser_library/src/processing/instruction_sets/macro_processor.cpp:get_label_args", "parser_library/src/processing/context_manager.cpp:try_get_symbol_name"]}
{"id": "C91", "title": "The operation is the word behind the label, with the values put in", "statement": "Behind the label and its blanks the operation is the longest text without blanks and apostrophes. With variable symbols it stands for that text with the values substituted; blanks at both ends of the result are dropped and a blank inside is an error. Without variable symbols it is taken as written, up to the next blank if it does not begin with an ordinary symbol.", "quantifier": "all statements as sequences of tokens whose label does not begin with an apostrophe, all values of the variable symbols", "why_tests_cant": "The longest match and the trimming depend on every position of blanks, apostrophes and variable symbols.", "anchors": ["parser_library/src/parsing/grammar/instruction_field_rules.g4:instruction", "parser_library/src/parsing/grammar/instruction_field_rules.g4:macro_name", "parser_library/src/processing/statement_processors/ordinary_processor.cpp:resolve_instruction"]}
{"id": "C92", "title": "The debugger shows variables with the values statements read", "statement": "While the program stands still, unfolding the Globals and Locals of a frame shows exactly the elements of the variables of that frame's scope: every entry is reached by the ampersand and the name of a variable and then subscripts, its value is the one a statement reads with these subscripts (an array as a whole is shown empty), its type is the variable's, it can be unfolded just if it is an array or a non-empty sublist, and it stands under Globals just if the variable is global; every assigned element and every item of a sublist is found there. Provided no parameter has the name of another variable of the scope, and elements and sublists can be numbered by an int. The answer is sent just if all names and values in it are UTF-8.", "quantifier": "every state a debugger can reach, every frame, every scope with distinct names, every sequence of requests between the answers, every path the client follows, every variable and every list of subscripts", "why_tests_cant": "paths of requests are unbounded and interleave; arrays, sublists and scopes have any content", "anchors": ["parser_library/src/debugging/debugger.cpp: debugger::impl::scopes, variables", "parser_library/src/debugging/macro_param_variable.cpp", "parser_library/src/debugging/set_symbol_variable.cpp", "parser_library/src/context/hlasm_context.cpp: get_var_sym", "language_server/src/dap/dap_feature.cpp: on_variables"]}
{"id": "C93", "title": "References to variables and frames", "statement": "A reference the client was sent shows the same names, values and types however often it is asked for until the program runs on; all references in an answer are new and different; behind the next stop a reference from before leads nowhere and is never given to something else; before the first stop and behind the end all answers are empty; stack frames come innermost first and each identifier leads to the scope of the frame it was sent with; and no request overflows provided elements of arrays have subscripts below the largest int.", "quantifier": "every state a debugger can reach, every later sequence of requests, stops and the end, every reference and frame identifier", "why_tests_cant": "sequences of requests and stops are unbounded", "anchors": ["parser_library/src/debugging/debugger.cpp: debugger::impl::stack_frames, scopes, variables, add_variable, step"]}
{"id": "C94", "title": "The debugger shows ordinary symbols and their attributes", "statement": "While the program stands still, unfolding the ordinary symbols of a frame shows exactly the symbols that are known, each with its value (a decimal number, RELOC, COMPLEX or UNDEF), and below each exactly the attributes it has (T always, L and S once known, I if both are) with the values that attribute references read, for S and I provided the symbol's type may have them.", "quantifier": "every state a debugger can reach, every set of symbols, values and attributes, every sequence of requests in between", "why_tests_cant": "symbols and their attributes are unbounded", "anchors": ["parser_library/src/debugging/ordinary_symbol_variable.cpp", "parser_library/src/debugging/attribute_variable.cpp", "parser_library/src/expressions/conditional_assembly/terms/ca_symbol_attribute.cpp: retrieve_value"]}
{"id": "C95", "title": "Where a diagnostic is placed", "statement": "While a statement is processed the chain of places is defined; its innermost place is the statement that was read last and is the same as the current statement location; before it stand, outermost first, the current statements of everything entered and not left (files, COPY members, macros with the COPY chain of each of their statements). A diagnostic carries the file of the innermost place and one 'While compiling FILE(line)' note for each other place, innermost first; a diagnostic of a statement that was put off carries the chain it had then. Proviso: no COPY comes out of a macro's statement by substitution and no attribute lookahead that was started in a macro is running.", "quantifier": "all sequences of reading statements, entering and leaving members, macros and library files, branches, jumps and lookaheads", "why_tests_cant": "the chain is put together from three vectors in a fixed order; that this order is the order of entering holds for all nestings only by an invariant", "anchors": ["parser_library/src/context/hlasm_context.cpp: processing_stack, current_statement_location", "parser_library/src/diagnosable_ctx.h: add_diagnostic", "parser_library/src/checking/diagnostic_collector.cpp"]}
{"id": "C96", "title": "Which statement is read next", "statement": "Whatever statements do, no statement outside of a member or a macro is read, and the next statement is the next one of what was entered last. The statements of a macro or of a member are read one after another, then everything is as it was at the call. A lookahead, whatever it reads, goes back: for an attribute to the statement that asked for it, which is read again, for a sequence symbol to after it. A jump in open code to a label met before goes on with the statement that has the label, in the chain of members in which it was met.", "quantifier": "all sequences of operations of statements, all members and macros", "why_tests_cant": "the statement pointers are decremented and incremented in several places to make up for each other; the sum is right only by an invariant over all states", "anchors": ["parser_library/src/processing/processing_manager.cpp: find_provider, finish_lookahead, jump_in_statements, register_sequence_symbol", "parser_library/src/processing/statement_providers/copy_statement_provider.cpp", "parser_library/src/processing/statement_providers/macro_statement_provider.cpp", "parser_library/src/context/hlasm_context.cpp: get_begin_snapshot, get_end_snapshot, apply_source_snapshot"]}
{"id": "C97", "title": "The places kept with a macro definition", "statement": "For each statement of a macro's body the places are kept that it had when the macro was defined: the statement of the file or member with the MACRO statement, then the statements of the members entered since; the innermost is the statement itself. Proviso: the definition is not inside of a macro, and the member with its MACRO statement is not left before the end.", "quantifier": "all bodies with any nesting of COPY and any reading of library files in between", "why_tests_cant": "the outer position is remembered from statement to statement and only right as long as the copy stack has the depth it had at the start", "anchors": ["parser_library/src/processing/statement_processors/macrodef_processor.cpp: add_correct_copy_nest, process_statement, process_COPY"]}
{"id": "C98", "title": "Forms of data definition operands", "statement": "The operand field of DC or DS is read exactly if its operands, separated by commas and perhaps omitted, each consist of an optional parenthesised duplication factor, a word (type, extension, constant modifiers), up to three parenthesised modifier values each with a word behind it, an optional last parenthesised value and an optional nominal value (a string, or expressions and addresses D(B) in parentheses). For such a field exactly one list of operands is handed over; in it every expression, every word and the nominal value stand in the order in which they were written, a parenthesised expression at the very end is taken for the nominal value, and in strings doubled apostrophes and ampersands count once.", "quantifier": "all token sequences of operand fields of DC and DS, of any length, all expressions and strings", "why_tests_cant": "The forms are nested and share prefixes (a parenthesis can open a modifier value, a nominal value or an address), so that two readings of one text differ only for inputs nobody lists; tests show single inputs and not that no text has a second reading.", "anchors": ["parser_library/src/parsing/grammar/data_def_rules.g4 (data_def, prog_type_and_modifier_p, nominal_value_o, nominal_value, mach_expr_or_address_comma_c, data_def_id, data_def_string)", "parser_library/src/parsing/grammar/machine_expr_rules.g4 (string_ch)", "parser_library/src/parsing/grammar/operand_field_rules.g4 (op_list_dat)"]}
{"id": "C99", "title": "Data definitions from their tokens", "statement": "If a definition (duplication factor, type, extension, program type, length or bit length, scale, exponent, nominal value) is spelled out in an operand of DC or DS, in upper or lower case and with constants or parenthesised expressions for the numbers, and is readable as such, then the definition that results from reading the operand is that definition, without diagnostics, also as one of several operands of a field. Conversely an operand that is read without diagnostics is such a spelling, but for modifiers whose values are missing. Whatever the tokens, reading never uses an expression or nominal value that is not there.", "quantifier": "all definitions, all ways to cut their text into tokens, all expressions in them, all fields", "why_tests_cant": "The text is taken apart twice, once by the grammar into a format string with placeholders and once by the reader of that string; that the placeholders and the expressions always agree, for all mixtures of constants and expressions, is an invariant across both that examples only touch.", "anchors": ["parser_library/src/parsing/grammar/data_def_rules.g4 (data_def)", "parser_library/src/expressions/data_definition.cpp (data_definition::create)"]}
{"id": "C100", "title": "Hovering over an ordinary symbol shows its value and attributes", "statement": "Hovering over an ordinary symbol shows a text exactly if the symbol has a value. The text has one reading: for an absolute symbol its value, for a relocatable symbol the sections and the offset whose sum is its value wherever the sections are placed, and the attributes L, I, S (those it has) and T with the values attribute references read (S and I if the type may have them). For relocatable symbols this holds if no section is subtracted in the value and the length of every space in it is known. (Refuted without: a subtracted section is shown as if it were added, so BB-A and BB+A have the same text; a space of unknown length is left out.)", "quantifier": "all values, all addresses (any number of sections, counts, trees of spaces), all attributes, all placements of sections", "why_tests_cant": "the text must be decodable for every number, name and combination of attributes; a test compares a few literal strings", "anchors": ["parser_library/src/lsp/lsp_context.cpp: hover_text, find_hover", "parser_library/src/context/ordinary_assembly/address.cpp: to_string, offset"]}
{"id": "C101", "title": "Hovering over variable symbols and an answer at every place", "statement": "In open code, hovering over a variable symbol names the type of the first statement that declares or sets it (nothing if there is none), and the variable has that type if the statements of open code are accepted and no declaration as global gives the name another type. Hovering, going to the definition and completion are about the same definition. Every position of every file has an answer: the text of an ordinary symbol, of a sequence symbol, the documentation of a called macro or of an instruction. (Refuted without the provisos: GBLC in open code behind GBLA in a macro is accepted and shown as SETC though the variable is a SETA variable; a rejected statement counts as the definition.)", "quantifier": "all sequences of statements of open code and of the macros called, all names, all contexts of an analysis, all files and positions", "why_tests_cant": "the type depends on every statement executed before, in macros too; tests look at single programs", "anchors": ["parser_library/src/lsp/lsp_context.cpp: find_hover, hover, complete_var", "parser_library/src/processing/statement_analyzers/lsp_analyzer.cpp: collect_var_definition, add_var_def", "parser_library/src/context/hlasm_context.h: create_global_variable"]}
{"id": "C102", "title": "The parser sees the tokens it wants, each once and in order", "statement": "Whatever the lexer delivers and however looking, taking and changing what is wanted (continuations, hidden tokens) are interleaved, the next token shown is the first wanted one not passed over yet; taking removes exactly this token and the unwanted ones around it; taking all gives exactly the wanted tokens of the file in order, ending with the end of the file; taking the end is an error and never silently continues. The token before the place is the one taken last; looking ahead is undone exactly by going back to the index, and the index reached can be gone to again. Looking k tokens ahead gives the k-th token if all tokens on the way are wanted. (Refuted without this proviso: with a hidden token in between, LT(2) gives the third wanted token.)", "quantifier": "all lists of tokens of the lexer, all sequences of actions", "why_tests_cant": "the stream fetches tokens lazily and changes its filter in the middle; tests see single parses", "anchors": ["parser_library/src/lexing/token_stream.cpp: LT, LB, adjustSeekIndex, next_token_on_channel, is_on_channel"]}
{"id": "C103", "title": "After going back in the input the statements of the new place are read", "statement": "A token stream that is given new text starts with its first token, with the same kinds of tokens wanted as before. After the end of a statement has been taken and the input has been rewound, the next tokens are exactly those of the new place, provided that the next token behind the statement is not the end of another one or follows directly. (Refuted without the proviso: with a comment and an empty line behind the statement, the end of the empty line is read as an empty statement before those of the new place.)", "quantifier": "all tokens before and behind, all places to go to", "why_tests_cant": "one token is fetched ahead of every statement; what it is depends on the lines behind", "anchors": ["parser_library/src/lexing/token_stream.cpp: rewind_input, reset", "parser_library/src/parsing/parser_impl.cpp: rewind_input, get_next"]}
{"id": "C104", "title": "A line becomes the statement of its own fields", "statement": "In open code every line whose label and operation are read becomes the statement with exactly that label, that operation and the operands and remarks of its operand field, as the form of the operation asks: a single empty operand counts as none, a missing operand as an empty one, deferred operations get the text with its variable symbols, operations to be ignored and unreadable lines give no statement, an empty line gives the empty statement. Nothing is taken over from lines before, no exception or assertion is raised, and what the line highlights is shown once, in order; if attributes must be looked for first, nothing is handed out or shown. While looking ahead the same holds for lines whose operation is read, with operands only for labelled lines and COPY; a line whose operation cannot be read leads to undefined behaviour there, and the variable symbols in operation fields are shown once more.", "quantifier": "every line and every reading of its operand field, every status of instructions, every answer about attributes, every parser state between two statements", "why_tests_cant": "A test reads a few programs; that no field can survive from one line into the next, or be set twice, is a statement about all sequences of lines and failures of rules.", "anchors": ["parser_library/src/semantics/collector.cpp", "parser_library/src/parsing/parser_impl.cpp: get_next, process_ordinary, process_lookahead, parse_operands, parse_lookahead_operands", "parser_library/src/parsing/grammar/hlasmparser.g4: lab_instr", "parser_library/src/parsing/grammar/lookahead_rules.g4"]}
{"id": "C105", "title": "The message about a syntax error fits the statement", "statement": "A statement that fits no rule of the grammar gets exactly one message, at the place of the error (moved into the source, with the substituted text before it if there was one): the first of right parenthesis without left, left without right, only parentheses, sign without operand behind it, ampersand without name, sign without operand before it, comparison sign, odd number of apostrophes where one is expected, label alone on the line, that is true of the tokens from where the decision began to the end of the statement -- however many of them had been read; else it is called a syntax error. Operands are known by names, ampersands and parentheses only: a number behind a sign does not count. An unexpected end of a statement is reported as such. Reading goes on at the end of the statement with no further message until then. Not reported are tokens that do not belong into a repetition.", "quantifier": "every list of tokens of a file, every place of the error and of the decision, every amount of tokens fetched, every substituted text", "why_tests_cant": "The conditions overlap and the scan looks at neighbours at both ends of the statement; only a proof covers all combinations and the indices at the edges.", "anchors": ["parser_library/src/parsing/parser_error_listener.cpp: syntaxError, iterate_error_stream, get_end_index", "parser_library/src/parsing/error_strategy.h: reportError", "parser_library/src/parsing/parser_error_listener_ctx.cpp: add_parser_diagnostic"]}
{"id": "C106", "title": "A conditional assembly operand is worth what its expression means", "statement": "Take an operand of SETA, SETB, SETC, AIF, AGO or ACTR, or a subscript, substring bound, duplication factor or function parameter, that the parser accepted for the kind wanted (number, truth value, characters). Its value is the meaning of the expression: terms, operators, functions and strings combined as written, a SETB symbol is 0 or 1 in arithmetic, a character symbol is the number it spells (the empty one is 0), a number is true if it is not 0, a relation compares characters exactly if its left operand is a string, a T' or O' attribute or a concatenation beginning with one. If any part has no value (undefined symbol, bad spelling, overflow, wrong subscript), there is a message; a value given without a message is the meaning. Expressions whose kind cannot be the one wanted are reported before evaluation. Provided T' and O' attributes are not used as numbers, numeric variable symbols are not used as characters inside an expression, and the functions ESYM, SYSATTRA and SYSATTRP are not used.", "quantifier": "all expressions of any depth, all kinds wanted, all contents of variable symbols, symbols and attributes", "why_tests_cant": "values flow through a record of three fields whose tag is not checked on reading, so the result depends on which of the kinds were asked for at every node; the combinations of node, kind wanted and kind held are unbounded", "anchors": ["parser_library/src/expressions/conditional_assembly/ca_expression.cpp", "parser_library/src/expressions/conditional_assembly/ca_operator_binary.cpp", "parser_library/src/expressions/conditional_assembly/ca_operator_unary.cpp", "parser_library/src/expressions/conditional_assembly/ca_expr_policy.cpp", "parser_library/src/expressions/conditional_assembly/terms/ca_var_sym.cpp", "parser_library/src/expressions/conditional_assembly/terms/ca_function.cpp", "parser_library/src/expressions/conditional_assembly/terms/ca_string.cpp"]}
{"id": "C107", "title": "A statement is processed only when what its attribute references need is known", "statement": "Before a statement is processed it is searched for references T', L', S' and I' to symbols, or to variable symbols whose text is a symbol, in its instruction field, label and operands: at any depth of expressions, function parameters, duplication factors, substrings, subscripts, created names and sublists, but not in the text of strings. A lookahead is started exactly if the symbol of one of them is neither defined nor looked for yet, and it looks for exactly these symbols, those of the instruction field first; a reference to a variable symbol waits until the references in that variable symbol are settled. The statement is processed after at most as many lookaheads as references stand in the variable symbols of one another, all symbols being known then, provided that the text of a variable symbol is settled once the symbols that the references in it need are known. (In the text of a string it is not so, refuted: the symbol of &C SETC '&A(L'X)' is not looked for.)", "quantifier": "all statements, all expressions of any depth in their fields, all sets of known symbols and all values of variable symbols", "why_tests_cant": "Where a reference may stand is a matter of arbitrary nesting; tests have a handful of expressions, and the number of rounds depends on references inside the variable symbols of other references.", "anchors": ["parser_library/src/processing/statement_providers/statement_provider.cpp: try_trigger_attribute_lookahead, process_label, process_instruction, process_operands", "parser_library/src/processing/statement_providers/members_statement_provider.cpp: get_next", "parser_library/src/semantics/concatenation.cpp: get_undefined_attributed_symbols", "parser_library/src/expressions/conditional_assembly/terms/ca_symbol_attribute.cpp: get_undefined_attributed_symbols", "parser_library/src/expressions/conditional_assembly/terms/ca_var_sym.cpp: get_undefined_attributed_symbols_vs", "parser_library/src/expressions/conditional_assembly/terms/ca_string.cpp: get_undefined_attributed_symbols"]}
{"id": "C108", "title": "AREAD assigns the next record or the time of day", "statement": "AREAD without a variable symbol as its name, outside macros, or with an operand other than NOSTMT, NOPRINT, CLOCKB or CLOCKD is one report (E010, E069, E070); nothing is assigned and no record is read. Otherwise variable symbols and reports are exactly as after SETC with the text that AREAD gives, so the variable has this text and every other one is as before, and a record is read exactly if the assignment is accepted. The text is empty at the end of the source and otherwise the line in 80 bytes, blanks behind it or cut off; for CLOCKB it is the hundredths of a second since midnight in eight figures, for CLOCKD hours, minutes, seconds and hundredths in two figures each, at every time of the day. The text is valid UTF-8 exactly if the 80th byte ends a character. (It need not, refuted: a line of 79 letters and one accented letter is cut inside the character.)", "quantifier": "all states of variables and of the source, all names, subscripts and operands, all times of day", "why_tests_cant": "The states of the variables, the lines of the source and the times of day are unbounded or far too many to be enumerated; a character cut in two needs one particular column.", "anchors": ["parser_library/src/processing/instruction_sets/ca_processor.cpp: process_AREAD, prepare_SET_symbol", "parser_library/src/parsing/parser_impl.cpp: aread", "parser_library/src/aread_time.cpp: time_to_clockb, time_to_clockd"]}
{"id": "C109", "title": "The configuration files mean what their members say", "statement": "proc_grps.json is accepted if and only if it is an object with an array \"pgroups\" of objects, each with a string \"name\", an array \"libs\" of strings or of objects with a string \"path\" (and optionally a Boolean \"optional\" and strings \"macro_extensions\"), optionally \"asm_options\" with strings \"PROFILE\" and \"SYSPARM\", and optionally strings \"macro_extensions\"; then what is absent is false or empty, members of other names are ignored, and the configuration is what the members say. Likewise pgm_conf.json, provided its \"diagnosticsSuppressLimit\", if it is a number, is one that an unsigned int holds, and it is not a Boolean. Anything else is reported. What is written from a configuration is read back as the same configuration.", "quantifier": "all JSON values, all configurations", "why_tests_cant": "The shapes of a JSON document are unbounded; a test shows a few documents.", "anchors": ["parser_library/src/config/proc_conf.cpp: from_json, to_json", "parser_library/src/config/pgm_conf.cpp: from_json, to_json"]}
{"id": "C110", "title": "Diagnostics of a program without configuration are shown up to the limit, and the user is told once", "statement": "After any sequence of editor settings, loads of the configuration, analyses and closings of files, the limit is the one of the last loaded pgm_conf.json, or else of the last settings of the editor (negative numbers being zero), or else ten. An analysis that was not cancelled, of a program that no processor group is assigned to, that found more than the limit, leaves no diagnostics of the program and of the files it depends on, and leaves those of other files; after any other analysis exactly what it found is shown. The user is told that diagnostics are suppressed exactly when they do not know yet: not told since the file was last closed or last shown with its diagnostics. The numbers in the settings are those that int64_t holds; loading a configuration analyses programs without regard to the limit.", "quantifier": "all sequences of events and all results of the analyses", "why_tests_cant": "The state depends on the whole history of events.", "anchors": ["parser_library/src/lib_config.cpp: load_from_json, fill_missing_settings", "parser_library/src/workspaces/workspace.cpp: parse_file, delete_diags, did_close_file", "language_server/src/lsp/feature_workspace_folders.cpp: configuration"]}
{"id": "C111", "title": "System variables tell the date, the nesting of macros and the section", "statement": "For every local time with a year of four figures, SYSDATC is YYYYMMDD, SYSDATE is MM/DD/YY, SYSTIME is the hour and the minute in two figures each with a colon between, and SYSPARM is the option. In any nest of macro calls SYSNEST is the number of macros, SYSMAC(0), SYSMAC(1) and so on are their names from the innermost one outwards, then OPEN CODE, then empty. SYSNDX has at least four figures, exactly four for the first ten thousand calls, and is different for any two calls. SYSECT, SYSLOC and SYSSTYP are the name, the location counter and the kind of the section that is current at the call.", "quantifier": "all times, all nests of macros, all numbers of calls, all sections", "why_tests_cant": "Dates with each combination of one and two figures and all depths of nesting cannot be enumerated.", "anchors": ["parser_library/src/context/hlasm_context.cpp: add_system_vars_to_scope, add_global_system_vars", "parser_library/src/context/variables/system_variable.cpp"]}
{"id": "C112", "title": "Editing commands keep the continuation column", "statement": "With continuation handling switched on in the editor client, editing a continued line (column 72 in use) in front of the continuation leaves columns 72 and up where they are. Backspace (cursor in columns 2 to 71), the delete key (cursor in columns 1 to 71), cutting or deleting a selection that ends before column 72 remove exactly the characters asked for and put as many blanks before column 72; typing or pasting where at least one blank more than the length of the text stands before column 72 inserts the text and removes that many blanks; if there are fewer blanks the text is only inserted. Lines that are not continued are edited as usual, including the joining of lines. The command to continue a line of at most 71 characters pads it, puts X into column 72 and starts a line in column 16; on a continued line it adds a continued line after it; the command to remove a continuation removes the line of the cursor and leaves the line before it continued exactly if the removed one was; neither touches another line. Provisos that do not hold in general: the blanks (with exactly as many blanks as characters typed, the character before them is lost), the cursor not in column 1 or 72 for backspace, a selection not made towards the left margin, a selection not across column 72, a line without sequence number for the command to continue.", "quantifier": "all documents, all lines, cursor positions and single-line selections within the stated columns, all inserted texts", "why_tests_cant": "The cases combine line length, cursor column, direction of the selection and blanks before the continuation; the tests of the client use one or two of them.", "anchors": ["clients/vscode-hlasmplugin/src/customEditorCommands.ts:CustomEditorCommands", "clients/vscode-hlasmplugin/src/continuationHandler.ts:ContinuationHandler"]}
{"id": "C113", "title": "URIs and names of files match", "statement": "However the client percent-encodes the absolute name of a local file in a document URI, the server works with exactly that name, with the steps . and .. and repeated slashes gone along; the debug adapter arrives at the same name for both formats of paths a client may use, so breakpoints and documents meet. The URI the server sends for a file, in diagnostics and locations, denotes that file exactly if its name contains neither a percent sign nor a backslash; then the name survives the way to the client and back and different files have different URIs. A document not yet saved keeps its URI both ways, and documents of other schemes have no name. (With a percent sign in the name the URI denotes another file or cannot be decoded; a host in the URI turns the name into a relative one. Systems other than Windows.)", "quantifier": "all names of files as byte strings, all percent encodings of them, all sequences of path steps", "why_tests_cant": "The conversions must be inverse to each other for every byte and every spelling the client may choose; tests convert a handful of ASCII names.", "anchors": ["language_server/src/feature.cpp:feature::uri_to_path, feature::path_to_uri", "language_server/src/dap/dap_feature.cpp:convert_path"]}
{"id": "C114", "title": "Machine operand fields are read as they are written, from the characters on", "statement": "Take operands of machine instructions as they are written: expressions of symbols of up to 63 characters (upper or lower case, optionally qualified), decimal numbers, X'..', B'..' and C'..' terms (apostrophes and ampersands in them doubled), attribute references, the location counter, signs, parentheses and the four operations; operands of the forms D, D(B), D(X,B), D(,B), D(X,) or omitted, with commas between them, and optionally a blank and a remark behind. Their characters, at any column past the first, with an unlimited line or ending before the continuation column, are read as exactly those operands: the same operations with the usual precedence and left to right, the names in capitals, the values of the terms, the omitted parts, and for every expression and operand its exact place in the text. The remark and the column have no part in it; one text has one reading; a field without operands has none. A qualifier does not survive (Q.R and S.R are read alike), a symbol of more than 63 characters is not read, and a term whose value does not fit is read as zero.", "quantifier": "all operand fields of the stated forms (any number of operands, any depth of parentheses, any strings), all remarks, all columns", "why_tests_cant": "The reading passes through the lexer's token queue and attribute flag, the joining of tokens into terms and strings, and the grammar; tests fix a few operands, while the ways in which strings, quotes, attributes and ampersands can be adjacent are unbounded.", "anchors": ["parser_library/src/lexing/lexer.cpp:lexer::lex_tokens", "parser_library/src/parsing/parser_impl.cpp:parser_holder / parse_operand_field, parse_self_def_term", "parser_library/src/parsing/grammar/hlasmparser.g4:id, id_no_dot, num, self_def_term", "parser_library/src/parsing/grammar/machine_expr_rules.g4:mach_expr, mach_data_attribute, string", "parser_library/src/parsing/grammar/operand_field_rules.g4:op_rem_body_mach"]}
{"id": "C115", "title": "Debug sessions through the tunnel", "statement": "When the client opens debug session n (message hlasm/dap_tunnel carrying n, 0 <= n < 2^64) and no session n is alive, one is started, and from then on, however messages, other sessions and the threads interleave, what that session is given is a prefix of the contents of the messages the client sends under hlasm/dap_tunnel/n, in order, up to the first without content; while its loop lasts, reading what waits for it gives it all of them. No two living sessions share a number; opening a number in use disturbs nothing; a message touches no session but the one addressed. What sessions say reaches the client in order under their own names, and the language server gets exactly the remaining messages in order. Opening a session forgets the ended ones. Proviso: what is said to an ended session piles up until another is opened, and a negative number opens a session under another number's name.", "quantifier": "all interleavings of client messages (arbitrary JSON) with reads, replies and ends of any number of sessions", "why_tests_cant": "the interleavings of the reader thread with the session threads and the sequences of registrations are unbounded, and message loss shows only under particular schedules", "anchors": ["language_server/src/dap/dap_session_manager.cpp: session_manager::write, handle_registration_request, cleanup_sessions, get_filtering_predicate", "language_server/src/dap/dap_session.cpp: session::thread_routine", "language_server/src/dap/dap_message_wrappers.cpp: message_unwrapper::read, message_wrapper::write, generate_method_name", "language_server/src/message_router.cpp: message_router::write", "language_server/src/dispatcher.cpp: run_server_loop"]}
{"id": "C116", "title": "Debug messages of a front end connected through the client's proxy", "statement": "A front end without in-process debug adapters connects to a local socket of the extension and speaks the debug adapter protocol on it. What is read from a connection does not depend on how its bytes are split into chunks, provided no header gives a length below zero: a sequence of frames whose first header field is Content-Length, possibly followed by the beginning of another frame, is read as exactly the messages in it, and the beginning is kept. Every connection opens a debug session of its own with the language server, sends under the name of that session exactly the messages read, in order, and closes the session after them when the socket closes. However connections, other traffic and the threads of the server interleave, the debug session belonging to a connection is given a prefix of the messages framed on that connection (up to the first null message, which ends the session), and all of them once it has caught up. A message of the server is written, as one frame with the right length, to the connection of its session if that is open, and to no other; nothing else is written.", "quantifier": "all chunkings of all byte sequences, all interleavings of connections, chunks, closings and answers, all runs of the server that receive those notifications among others", "why_tests_cant": "Tests use one connection and whole messages; the split of a header over two chunks, and the interleaving of several connections, depend on the network.", "anchors": ["clients/vscode-hlasmplugin/src/hlasmDebugAdapterFactory.ts:setup_theia_compatibility_server", "clients/vscode-hlasmplugin/src/hlasmDebugAdapterFactory.ts:HLASMDebugAdapter", "language_server/src/dap/dap_session_manager.cpp:dap::session_manager::handle_registration_request"]}
{"id": "C117", "title": "Which documents the editor treats as HLASM", "statement": "In a folder whose two configuration files can be read, starting the extension or saving one of the files puts in force exactly the patterns of the files (programs, alwaysRecognize, everything below library paths, joined with the folder): a document name is selected iff one of the patterns denotes it, the same names the server selects with that pattern (names in one-byte characters without line breaks). Nothing else changes the patterns while both files exist; with a broken groups file only the libraries are left out, with a broken program file nothing is selected. As long as the user has not chosen not to be asked about configuration files, a document that is shown gets the language HLASM iff it is plain text and its name is selected or, with autodetection on, its first line is a MACRO line or more than two fifths of its statements (lines neither empty nor comments) have at most 80 characters and either a common operation between blanks or continue such a line; every other document keeps its language.", "quantifier": "all sequences of starts, saves, changes of the configuration files and shown documents; all names, texts and patterns; any path joining and any conversion to capitals", "why_tests_cant": "The outcome depends on the order of saves and file changes and on the interplay of continuation, comments and lengths over whole documents.", "anchors": ["clients/vscode-hlasmplugin/src/configurationsHandler.ts:updateWildcards", "clients/vscode-hlasmplugin/src/configurationsHandler.ts:convertWildcardToRegex", "clients/vscode-hlasmplugin/src/hlasmLanguageDetection.ts:checkHlasmLanguage", "clients/vscode-hlasmplugin/src/eventsHandler.ts:editorChanged", "parser_library/src/workspaces/wildcard.cpp:wildcard2regex"]}
{"id": "C118", "title": "Arithmetic operands have the value they are written to have", "statement": "The operand field of SETA - blanks, operands with commas between them, optionally a remark behind a blank - is read operand by operand, and every operand gets, with no message from parsing or evaluation, the value ordinary arithmetic gives it: decimal numbers, self-defining terms X'..', B'..', C'..' (doubled apostrophes and ampersands being one), absolute symbols and variable symbols with evaluated subscripts in either case of letters; signs bind to the term behind them, * and / before + and -, operators of one rank from left to right, parentheses first; division drops the remainder and by zero gives zero. An operand whose value, or the value of a part of it, does not exist or leaves 32 bits is never evaluated in silence; without a minus sign in it, and when all variable symbols hold numbers, it gets a message. An omitted operand stays omitted. Blanks before, column and remark make no difference. Provisos: the field is on one line and has an operand; a symbol alone in parentheses is not NOT; no minus sign before -2147483648.", "quantifier": "all fields of any number of operands and expressions of any depth, any remark, any values of variable and ordinary symbols", "why_tests_cant": "Composes lexing, grammar, grouping and evaluation over unboundedly many expressions; tests of each layer do not show that a text means its value.", "anchors": ["parser_library/src/parsing/parser_impl.cpp:parse_operands", "parser_library/src/parsing/grammar/ca_expr_rules.g4:expr", "parser_library/src/parsing/grammar/operand_field_rules.g4:op_rem_body_ca", "parser_library/src/expressions/conditional_assembly/terms/ca_expr_list.cpp:resolve_expression_tree", "parser_library/src/expressions/conditional_assembly/ca_operator_binary.cpp:evaluate", "parser_library/src/lexing/lexer.cpp:nextToken"]}
{"id": "C119", "title": "AIF branches on, and SETB takes, the truth of the conditions as they are written", "statement": "For an AIF whose operands are conditions in parentheses, each followed by a period and a sequence symbol, the branch goes to the symbol of the first true condition, and execution goes on if all are false. Nothing is reported. If a condition in error is reached before a true one, evaluation does not go by silently. An AIF is refused and does not branch exactly if it has no such operand, an operand of another form, or an empty operand other than one at the very end. SETB operands (a term, or a condition in parentheses) get their truth value in the same way. Conditions are built from terms that are 0 or 1, comparisons (EQ NE LE LT GE GT) of arithmetic expressions whose difference fits 32 bits, NOT, AND, OR and XOR (also with NOT behind them), and parentheses; AND binds before OR, OR before XOR, and on the right of these stands a term, a comparison or parentheses. Letter case, the number of blanks, the column and the remark make no difference. Without the provisos: A OR B AND C AND D is grouped against the priorities, comparing numbers far apart is undefined, and empty texts and numbers other than 0 and 1 are treated differently by themselves and within a larger condition.", "quantifier": "all lists of conditions of any depth, all ways of writing them on one line, all values of symbols and variable symbols, all columns and remarks", "why_tests_cant": "Conditions nest without bound and pass through the lexer, the expression grammar, the grouping by priorities and evaluation; tests fix a few texts.", "anchors": ["parser_library/src/processing/instruction_sets/ca_processor.cpp: prepare_AIF, process_AIF", "parser_library/src/parsing/grammar/ca_expr_rules.g4: expr, expr_list", "parser_library/src/expressions/conditional_assembly/terms/ca_expr_list.cpp: ca_expr_list::resolve", "parser_library/src/expressions/conditional_assembly/ca_operator_binary.cpp: ca_function_binary_operator::operation"]}
{"id": "C120", "title": "A conditional-assembly program leaves the variables, and stops at the line, that its text says", "statement": "Take open code whose lines are SETA and SETB (one operand, target a SET symbol with or without a subscript), AIF, AGO (plain or computed) and ANOP, with operands written in any of the ways of C118 and C119, and with sequence symbols that are distinct. After any number of lines with at most 4096 jumps, the next line is the one the program's meaning gives, every SET symbol reads as it says, and nothing has been reported; at the end of the text processing stops. The meaning is: SETA and SETB give the target the value of the operand as it reads before the line; AIF goes to the symbol of the first true condition; AGO goes to its symbol, or to the one its number selects; otherwise the next line follows. A line whose operand, subscript or reached condition is in error, or whose target has another type or shape, does not pass silently. A jump to a symbol that no line has is reported, and the next line follows. Provisos: subscripts are below 2^31 - 1; an error in the operand of SETA or SETB is certain to show only if the target existed before the line, because a new target is created first and reads as 0 in its own operand. Not so: a SETA whose operand is in error leaves the old value (it assigns 0 after the report).", "quantifier": "all programs of the lines above, all ways to write their operands, all numbers of lines executed, all initial settings of the assembler options", "why_tests_cant": "The text goes through lexing, parsing, evaluation, variable creation and branching, any of them a possible source of a wrong value many lines later; tests run a few programs.", "anchors": ["parser_library/src/processing/instruction_sets/ca_processor.h: process_SET", "parser_library/src/processing/instruction_sets/ca_processor.cpp: process_AIF, process_AGO, process_ANOP, prepare_SET_symbol, register_seq_sym", "parser_library/src/context/hlasm_context.h: create_global_variable, create_local_variable", "parser_library/src/processing/context_manager.cpp: get_var_sym_value, test_symbol_for_read"]}
{"id": "C121", "title": "The WebAssembly server gets every message once and whole, however its input is cut into chunks", "statement": "Let the client send messages, each with Content-Length as its first header line, further header lines, an empty line and a body of any bytes. However the bytes are cut into chunks on arrival and however the reading thread and the main thread take turns: the messages handed to the reading thread are the first ones of those sent, whole and in order, each as soon as it is complete; the handler of a chunk comes to an end; the server reads those bodies that are JSON, in order, and sees the end of input only after the input is closed and all complete messages have been read. The native server reads the same messages from the same input, and both write the same bytes for an answer. Without the provisos: input whose first header is not Content-Length is never read, nor anything behind it; a length that is not a number keeps the main thread busy for ever; with a negative length the result depends on the cuts.", "quantifier": "all sequences of messages, all ways to cut the stream of bytes, all interleavings of the two threads, all bodies", "why_tests_cant": "Chunk boundaries fall anywhere, also inside headers and between the bytes of a line end, and the two threads interleave freely; tests feed whole messages.", "anchors": ["language_server/src/emscripten_server_streams.cpp: emscripten_std_setup, data_event_handler, read, write", "language_server/src/blocking_queue.h: push, pop, terminate", "language_server/src/base_protocol_channel.cpp: read_message, write_message"]}
{"id": "C122", "title": "Colours in the editor are those of the server's last answer", "statement": "In the VS Code extension, after any sequence of semantic-token answers, changes of the visible editors and closings of documents (documents keeping their language), every visible editor of an HLASM document shows a colour at a range exactly when a token of the last answer with tokens for that document, decoded as the protocol defines it, has this type and this range; editors of other languages show none; every answer of the protocol's form is applied without failing; and with the server's own conversion of highlighted symbols that do not overlap, a character of the editor has a colour exactly when a symbol of that scope contains it. (Not so for an answer without tokens, which leaves the colours before it, nor for a document taken to another language, whose colours stay, and stay among the new ones when it returns: both are shown with witnesses.)", "quantifier": "all sequences of answers, editor changes and closings; all legends, token arrays, editors, documents and languages; all lists of highlighted symbols", "why_tests_cant": "The map of decoration types per document is changed in place and types are disposed and made again on each answer; whether a stale type or range survives depends on the whole history of answers, editors and documents, which tests sample only for one document and one editor.", "anchors": ["clients/vscode-hlasmplugin/src/semanticTokens.ts: SemanticTokensFeature.applyDecorations, colorize, askForTokens", "clients/vscode-hlasmplugin/src/eventsHandler.ts: EventsHandler.onDidChangeVisibleTextEditors", "language_server/src/lsp/feature_language_features.cpp: convert_tokens_to_num_array"]}
{"id": "C123", "title": "Library directories of the configuration, on Linux and Windows", "statement": "The path of a library in the processor-group configuration names the directory reached by going along its steps - empty steps, the steps . and .. and names, with a separator at the end or not - from the workspace folder, or from the root if the path is absolute; the result does not depend on how the path is written, and is the directory's normal name. On Linux (the native server and the WebAssembly one) this holds for every path; in the WebAssembly server on Windows it holds with both separators, for drives and for network shares, whenever the path does not go above the root and does not begin with a single separator (both exceptions are shown with witnesses: the drive is lost). A member of a library has the name of the directory followed by its own, whatever the current directory of the server, and on Linux it is the very name the server gives to the document the client opens with a URI of this file; the configuration files are looked for in the folder .hlasmplugin of the workspace.", "quantifier": "all workspace folders, library paths and ways to write them, drives, network shares, names of members, current directories and URIs", "why_tests_cant": "The names are built by several string operations one after another (joining, two translations of separators, a repair of network names, normal form of a library that does not know Windows); tests try a handful of paths on the platform they run on.", "anchors": ["utils/src/emscripten_path.cpp: is_absolute, absolute, join, lexically_normal", "utils/src/native_path.cpp: join, lexically_normal", "parser_library/src/workspaces/workspace.cpp: load_and_process_config, workspace::workspace", "parser_library/src/workspaces/library_local.cpp: find_file", "parser_library/src/workspaces/file_manager_impl.cpp: list_directory_files"]}
{"id": "C124", "title": "Programs are found under their names relative to the workspace", "statement": "The name under which the configuration of a program is looked up says how to get to the file from the workspace folder: for a file of the workspace it is exactly the names below the folder, for any other file the way up and down; different files have different names, whether or not the folder is given with a separator at its end. An entry of the program configuration without wildcards therefore is that of a file of the workspace if and only if it writes the names below the folder, and this also holds starting from the URI with which the client opens the file. In the WebAssembly server on Windows the same holds for drives and network shares, with either separator in the configuration, if the file and the workspace have the same root (for another drive the name leads nowhere, shown with a witness).", "quantifier": "all workspace folders, files, entries of the configuration, URIs, drives and network shares", "why_tests_cant": "The name is the result of a difference of two paths, normal form and on Windows several translations of separators; tests open one or two files directly in the workspace.", "anchors": ["parser_library/src/workspaces/workspace.cpp: get_proc_grp_by_program, load_and_process_config", "utils/src/emscripten_path.cpp: lexically_relative", "utils/src/native_path.cpp: lexically_relative"]}
{"id": "C125", "title": "The files an opened program uses", "statement": "For a program opened with any URI of a file of the workspace (Linux), whatever was configured before, the configuration in force decides: the group is the one configured for the names of the file below the workspace folder (its own entry, else the first pattern), and without one the program has no libraries. A macro or copy member is taken from the first library of that group whose directory has a file that provides it - the directory being the one its path leads to from the workspace or the root, the extensions the library's own, else the common ones, else those of the deprecated patterns - and it is reported missing only if no library has such a file. The path is the normal name of that file, so it is the very document the client edits when it opens any URI of the file.", "quantifier": "all workspace folders, programs, URIs, histories of configurations, groups, paths of libraries, extensions, contents of the disk and members", "why_tests_cant": "The result goes through URI decoding, a difference of paths, configuration tables, patterns, normal form of paths, extensions and listings of directories, any two of which may disagree about a name; tests mock the file system and use names that are already in normal form.", "anchors": ["language_server/src/feature.cpp: uri_to_path", "parser_library/src/workspaces/workspace.cpp: get_proc_grp_by_program, load_and_process_config, parse_library", "parser_library/src/workspaces/library_local.cpp: find_file, load_files", "parser_library/src/workspaces/file_manager_impl.cpp: list_directory_files"]}

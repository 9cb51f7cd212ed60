# Design of the formal model

The subject is the HLASM language server in /repo (C++).  The model is written in
Rocq (Coq 8.16.1) under `rocq/theories`, logical name `Verif`.  It follows the code
function by function; every definition carries a comment naming the file and lines
it models and saying what was simplified.

## Layout

For each area `X` there are up to four files:

* `X_Model.v`  - the functions of the code, as total computable Gallina functions.
* `X_Spec.v`   - a small specification that does not mention the model's helpers
                 (omitted when the specification fits into the theorem file).
* `X_Proof.v`  - lemmas.
* `X_Props.v`  - only the property theorems, each closed by `exact` of a lemma,
                 followed by `Print Assumptions` and by an `Example` showing that a
                 concrete non-trivial case meets the hypotheses.

Naming: `CNN_...` is a theorem for property CNN of `properties.jsonl`.  A suffix
`_partial` marks a theorem that proves only part of the property; `_refuted` marks a
theorem showing by a concrete execution of the faithful model that the full property is
false of the code at the pinned commit (a finding).

## Conventions

* Machine integers are `Z` (or `N`) with explicit wrap-around (`mod 2^32`, `mod 2^64`)
  where the code can reach it.
* Undefined behaviour and thrown exceptions are distinct results (`None`, or a named
  constructor), never a default value.
* Containers: `std::vector`/`std::deque`/`std::string` are lists, `std::map` and
  `std::unordered_map` are association lists or functions; iteration order of unordered
  containers is left arbitrary (quantified over).
* Concurrency: one atomic step per critical section or per access to shared state
  outside one; a schedule is an arbitrary list of steps.
* External code (JSON, ANTLR, file system, condition variables) enters as a parameter of
  the theorem, with its assumed behaviour written in the statement.

## Plan per property

| id | modelled | proof |
|----|----------|-------|
| C01 | the byte stream, `write_message`, `read_message` including header loop | induction on the message list; decimal print/parse round trip |
| C02 | queue as state machine with producer/consumer program counters and wake-up tokens | invariant over all step sequences |
| C03, C04, C05 | request manager with worker thread as state machine | invariants over all step sequences; exact conditions, witness for the early return |
| C06 | `consume_diagnostics` and the client's fold | refinement to "newest round" by induction over rounds |
| C07 | `convert_tokens_to_num_array` | decoder written from the LSP text, induction on the token list |
| C08 | `replace_non_utf8_chars` on byte lists | well-formedness grammar of UTF-8 as an inductive predicate |
| C09, C10 | `find_newlines`, `index_from_position`, `did_change` | declarative line-start predicate; induction over edits; witness where CRLF is split |
| C11 | translation of a wildcard pattern and full match | inductive matching relation |
| C12, C13 | configuration tables and library search | first-match characterisation |
| C14 | file map state machine | refinement to a map from open documents to text |
| C15 | workspace map and prefix matching | characterisation; witness for removal |
| C16, C17 | sparse address vectors, symbol values | linearity for every valuation of bases; witnesses where false |
| C18, C19 | location counter data, reserve/ORG | invariants over all operation lists |
| C20, C21 | dependency table | confluence by well-founded evaluation; reachability |
| C22-C27 | conditional assembly arithmetic, shifts, strings, functions, tables | arithmetic over Z, list induction, exhaustive table sweep |
| C28 | SET symbol storage | refinement to a partial map by induction over assignments |
| C29, C30 | macro call binding, operand text parsing | list induction; fuel-free termination measure |
| C31, C32 | macro entry counters, OPSYN table | invariants over histories |
| C33, C34 | debugger state machine, alone and interleaved with the client | trace induction; invariants, witness executions |
| C35, C36, C41, C42 | JSON messages, numbering, handler table, server loop, reader, LSP thread and worker | induction over histories and schedules; exact conditions for exit code, survival and responses; witnesses |
| C37, C38 | jumps with branch counter; AIF/AGO selection | measure; list induction |
| C39, C51-C53 | the whole lexer with its two input streams | invariant over all texts; chain of tokens; columns described on lines |
| C40 | AREAD, AINSERT and the rewinding of the input | refinement to two queues |
| C50 | debugger views under the variable mutex | invariants over all interleavings |
| C43 | reading a line from the line table | case analysis over the line table |
| C44, C45, C46 | file manager, open documents, dependencies, re-analysis (one workspace) | invariants over all operation lists with an arbitrary analyser |
| C47 | comparison of numbers and strings, logical operators | arithmetic, list induction |
| C48 | scopes, GBLx/LCLx | refinement to a world of assignment histories |
| C54-C56 | macro definition records, slices, occurrences, definition, references, completion of symbols | invariant over the statements of the body; the queries as sets |
| C57 | the trees of operands and the collector visiting them | mutual structural induction against relations of standing in a tree |
| C58-C61 | reading, checking, length and attributes of DC and DS operands | grammar of the text as relations; arithmetic of lengths; induction over values and operands |
| C62, C63 | checking of machine instruction operands, the two tables, mach_processor | per-operand case analysis against inductive relations; tables by computation of decision procedures proved right |
| C64, C65 | sections, location counters, EQU, ORG, EXTRN, label definitions | invariant of reachable states (unique counters, labels at starts), frame relation per statement, inductive relation `defines`, induction over programs |
| C66, C67 | COPY members, lookaheads, branches and macro definitions over a common source position | invariants of reachable states (distinct members, positions saved for sequence symbols, place to return to), induction over the reading order |
| C68–C72 | checks of assembler instructions on operands that are texts, values or nested options | one description per instruction, equivalence by case analysis and induction over operands; a calculus for the form of reports |
| C88 | grammar of conditional assembly operands, ordered choice with full backtracking in continuation passing style | mutual inductive grammar; soundness by induction on fuel, completeness by a combined mutual induction; uniqueness of matching parentheses decides failing alternatives |
| C89-C91 | grammars of labels, operations and operands with variable symbols, ordered choice with backtracking | combinators with one soundness, one acceptance and one determinism lemma each; text kept by a relation between chains and tokens closed under appending |
| C92-C94 | the debugger's tables of variables and references; unfolding as a sequence of requests | invariant that every stored reference holds the children of its variable; unfolding related to the items of sublists and the elements of arrays |
| C95-C97 | operations of statements on the stacks of sources, members and macros, in any order; specification: one stack of activations, read at its top only | simulation with an invariant that flattens the three stacks into the one |
| C98, C99 | rules for the operands of DC and DS run by recursive descent, then the reader of the format string; specification: trees for the forms, and tokens that spell a given definition | soundness and completeness of the descent; the text of a definition has few enough placeholders in the right places |
| C100, C101 | texts as functions of values, addresses and attributes; definitions collected beside the run of the statements (Var); specification: a relation between texts and what they say, the first written definition | one reading of every text by the first character that cannot belong to a part; types of heap cells and tables of open code are kept by every step |
| C102, C103 | the stream as an index into tokens fetched from a lexer, with outcomes for exceptions and endless loops; specification: a reader that holds the list of tokens to come | refinement: all tokens, fetched or not, are one list, which fetching does not change |
| C104 | the collector as seven optional fields, with outcomes for its exceptions, its assertion and the use of an empty optional; specification: the statement as a function of what was read of the line | case analysis over forms of operand fields; every field of the collector is empty between statements |
| C105 | the scan as a loop over indices with an outcome for an index out of range; specification: what each message claims, as a property of a list of tokens | invariant of the loop, flag by flag |
| C106 | expressions as trees with lists inside (strings, subscripts, parameters); evaluation in a monad of diagnostics with undefined behaviour; specification: a compositional meaning with three outcomes on the same syntax | one agreement relation closed under sequencing, induction over nested trees |
| C107 | `Und_*`: one tree for expressions, variable symbols and points of concatenations; `undefined` computes the set, `within` / `needs` (Und_Spec) say where a reference stands and what it needs; `rounds` reads the statement again after each lookahead, bounded by `deepest` |
| C108 | `Ard_*`: process_AREAD over the variables of Var_Model and the lexer of Lex_Model; equated with SETC of the text; time formats by positional value |
| C109 | decoding and encoding of JSON values as functions with exceptions | shapes as relations, equivalence; round trip; limits as witness |
| C110 | state machine of limits, tables of diagnostics and notifications | the state as a function of the history, for all histories |
| C111 | texts of the system variables from the clock, the scopes and the section | numbers in figures; names by position |
| C112 | each command as edits, the edits as splices of one line | splices sorted, not overlapping, moved with the line; the result as an explicit line; witnesses |
| C113 | decoding, parts of a URI and normal form of paths as functions on byte strings | ways to write a name as a relation; walking along names; length argument for percent signs |
| C114 | the lexer of Lex_Model on a field, joining of tokens to terms, the grammar of Gram_Model | a relation describing the tokens on the characters; simulation of the lexer; induction over written expressions; then C81 |
| C115 | Ses_Model.v | session manager, session loops and router as a transition system over client messages and thread steps; invariant: every living session is in the map under its own name; per-session ghost history of the messages addressed to it |
| C116 | Prx_Model.v, Ses_Model.v | invariant of the proxy's connections composed with the theorem on session delivery (C115); reading shown to commute with concatenation of chunks |
| C117 | Det_Model.v, Wild_Model.v | patterns by the theorem on the server's patterns (C11) carried over to the editor's regular expressions; the score by an invariant over lines against an inductive definition of the lines that count |
| C118 | Caf_Model.v, Caf_Spec.v, Caf_Proof.v, Caf_Eval.v, Caf_Field.v, Caf_Props.v | Texts, precedence and values are specified over written expressions; token lists and parse trees are related to them (`as_tokens`), then three inductions: characters to lexemes, lexemes to the grammar of C88, trees to values. |
| C119 | Cal_Model, Cal_Spec, Cal_Group, Cal_Proof, Cal_Field, Cal_Props | AIF and SETB conditions from characters: lexemes (Caf), list grammar (Cag), grouping (Grp) shown to give the tree of the written condition, evaluation (Exp), then the choice of process_AIF; the meaning of conditions is a separate inductive relation |
| C120 | Prg_Model, Prg_Spec, Prg_Proof, Prg_Run, Prg_Props | whole programs of SETA/SETB/AIF/AGO/ANOP: each source line is lexed and parsed (Caf, Cal), its target created and assigned (Var), control moved (Br); the meaning of a program is a separate inductive relation on (variables, line); an invariant relates it to the state after k steps |
| C121 | Ems_Model, Ems_Spec, Ems_Proof, Ems_Props | data events, turns of the JavaScript loop and the steps of the queue as one state machine; invariant: input so far = messages handed over ++ buffer; first occurrences of the separators are stable under more input |
| C122 | Paint_Model, Paint_Spec, Paint_Proof, Paint_Props | invariant over histories of answers, editor changes and closings: decoration types of the tables are alive, apart, and show what the tables hold; the tables hold the tokens of the last answer |
| C123 | Pth_Model, Pth_Spec, Pth_Proof, Pth_Props | ways to write a path as a relation, going along names as in C113 and a form of it that stays below the root; splitting and normal form commute with the translations of separators |
| C124 | Rel_Model, Rel_Proof, Rel_Props (specifications of Uri_Spec and Pth_Spec) | going along the name from the workspace as in C113; the common beginning of two lists of elements; composition with C113 |
| C125 | Fnd_Model, Fnd_Spec, Fnd_Props | composition of C12, C13, C113, C123 and C124; the configuration in force as a splitting of the history, the directory of a path as a relation |
| C49 | concatenation of text and variable symbols | structural induction over nested sublists |

## What is modelled

| files `X_*.v` | code (under /repo) | properties |
|---|---|---|
| Framing, Json | language_server/src/base_protocol_channel.cpp; JSON values as a datatype | C01 |
| Queue | language_server/src/blocking_queue.h | C02 |
| Req | language_server/src/request_manager.cpp | C03-C05 |
| Lsp, Dap, Sys | lsp_server.cpp, server.cpp, features (what they send), dap_server.cpp, dap_feature.cpp (responses), main.cpp, dispatcher.cpp, message_router.cpp | C35, C36, C41, C42 |
| Diag, Tok | lsp_server.cpp consume_diagnostics, feature.cpp path_to_uri; semantic tokens of feature_language_features.cpp | C06, C07 |
| Text | workspaces/file_impl.cpp, lsp/text_data_ref_t.cpp | C08-C10, C43 |
| Wild, Conf | workspaces/wildcard.cpp; workspace.cpp configuration, library_local.cpp | C11-C13 |
| Ws, Route | file_manager_impl.cpp, processor_file_impl.cpp, workspace.cpp, workspace_manager_impl.h, feature_workspace_folders.cpp | C14, C15, C44-C46 |
| Addr, Loctr, Dep | context/ordinary_assembly: address.cpp, symbol.cpp, location_counter*.cpp, symbol_dependency_tables.cpp, dependency_collector.cpp, address_resolver.cpp; expressions/mach_expr_term.cpp, mach_operator.h | C16-C21 |
| Ebc, Ca, Grp | ebcdic_encoding.*, expressions/conditional_assembly (operators, strings, functions, constants, expression lists, policies) | C22-C27, C47 |
| Var | context/variables/set_symbol.h, scopes of hlasm_context, SETx/GBLx/LCLx of ca_processor.cpp | C28, C31, C48 |
| Sub, Mac | context/macro_param_data.cpp, macro.cpp, macro_processor.cpp, macrodef_processor.cpp (prototype), semantics/concatenation*.cpp, variables/macro_param.cpp | C29, C30, C49 |
| Ops | operation codes of hlasm_context.cpp, OPSYN of asm_processor.cpp | C32 |
| Br | processing_manager.cpp (loop, jumps), lookahead for sequence symbols, AIF/AGO/ACTR/MEXIT of ca_processor.cpp | C37, C38 |
| Lex | lexing/lexer.cpp (all but the token sets after continuations), streams of input_source.cpp | C39, C40, C51-C53 |
| Dbg | debugging/debugger.cpp (debugger, commands, views), loop of processing_manager.cpp | C33, C34, C50 |
| Nav | macrodef_processor.cpp (body), lsp/file_info.cpp, lsp/lsp_context.cpp (add, definition, references, complete_var, complete_seq), lsp_analyzer.cpp (recording) | C54-C56 |
| Occ | occurence_collector.cpp, lsp_analyzer.cpp (what is collected from a statement, copy operands) | C57 |
| DD, DDP | checking/data_definition/*, checking/data_instruction.cpp, checker_helper.h (numbers), expressions/data_definition.cpp, process_data_instruction of asm_processor.cpp, data_def_postponed_statement.h | C58-C61 |
| Mach | context/instruction.* (machine instructions, formats, mnemonics; tables transcribed by a script), checking/instr_operand.cpp (machine operands), operand_impls.cpp (values of machine operands), check/transform_* of low_language_processor.cpp, mach_processor.cpp | C62, C63 |
| Sect | set_section, set_location_counter, create_symbol, align/reserve of ordinary_assembly_context.cpp, section.cpp, process_sect, process_LOCTR, process_EQU, process_ORG, process_EXTRN and labels of asm_processor.cpp, mach_processor.cpp, preprocess_inner (location counter in operands) of low_language_processor.cpp; states of counters, addresses, expressions, cycles and late values are parameters | C64, C65 |
| Look | processing_manager.cpp (loop, lookaheads, jumps in open code), lookahead_processor.cpp, macrodef_processor.cpp (what it reads), copy/macro/members_statement_provider.cpp, statement_provider.cpp, process_COPY of asm_processor.cpp, copy stack and snapshots of hlasm_context.cpp and processing_context.cpp, positions of the lexer; attributes, branches and macro calls are parameters | C66, C67 |
| Asm | checking/asm_instr_class.cpp, asm_instr_check.cpp, instruction_checker.cpp (assembler part), ranges of diagnostics (not messages), operand_impls.h/.cpp (values of assembler operands), low_language_processor.cpp (transform, check), asm_processor.cpp (instructions without processing of their own), the operand numbers of context/instruction.cpp; DC and DS are in Data; std::to_string is a parameter | C68–C72 |
| Attr | ca_symbol_attribute.cpp, symbol_attributes.cpp, hlasm_context.cpp (get_attribute_value_ca, get_type_attr, get_opcode_attr), context_manager.cpp, macro_param.cpp and system_variable.cpp (values, K', N'); what the context holds is a record of functions, subscripts are given by their values | C73–C76 |
| Rng | range_provider.cpp (union_range, adjust_range, adjust_position), parser_impl.cpp (the joined operand line); size_t with wrap-around | C77 |
| Hov | lsp_context.cpp (completion, should_complete_instr, get_macro_signature, get_macro_documentation, hover over instructions), completion_item.cpp, instr_operand.cpp (to_string), instruction.cpp (format names, conditional assembly and assembler tables); std::regex by derivatives; the order of items (names in std::map order) is left out | C78–C80 |
| Gram | machine_expr_rules.g4, machine_operand_rules.g4, assembler_operand_rules.g4, operand lists of operand_field_rules.g4; recursive descent stands for the generated parser, a multi-token lexeme is one token, no variable symbols, no error recovery | C81, C82 |
| Mop | macro operands: op_rem_body_alt_mac and cont_mac of operand_field_rules.g4, parse_macro_operands of parser_impl.cpp, macro_operand_rules.g4, clear_concat_chain; recursive descent stands for the generated parser, the alternatives for literals are left out, a variable symbol is one token | C83, C84 |
| Mbr | macrodef_processor.cpp (name, body, labels, get_macro_processing_status), copy_processor.cpp, the loop and results of processing_manager.cpp, statement_cache.cpp, members_statement_provider.cpp, processing statuses of ordinary_processor.cpp and lookahead_processor.cpp; a statement is its operation, sequence symbol and a number, reading an operand field in one form is a parameter | C85, C86, C87 |
| Cag | ca_expr_rules.g4, ca_operand_rules.g4, conditional assembly operand fields of operand_field_rules.g4; the first alternative that can be completed is taken; a multi-token lexeme is one token, no created names, no continued lines | C88 |
| Mdl | label_field_rules.g4, instruction_field_rules.g4, model_operand_rules.g4, `first_part`, set_label_field, concatenation::evaluate, labels in low_language_processor and macro_processor, resolve_instruction; a variable symbol with subscript and a double ampersand are one token, values of variable symbols are a parameter | C89–C91 |
| Dvar | debugging/macro_param_variable.cpp, set_symbol_variable.cpp, ordinary_symbol_variable.cpp, attribute_variable.cpp, debugger.cpp (add_variable, stack_frames, scopes, variables), get_var_sym, which texts the JSON library can write | C92-C94 |
| Stk | context/hlasm_context.cpp (processing_stack, current_statement_location, snapshots, members, macros), processing_manager.cpp (find_provider, lookaheads, jumps, labels of open code), copy_statement_provider.cpp, macro_statement_provider.cpp, macrodef_processor.cpp (copy nests), diagnosable_ctx.h and checking/diagnostic_collector.cpp (file and related information of diagnostics) | C95-C97 |
| Ddg | parsing/grammar/data_def_rules.g4 (all rules), machine_expr_rules.g4 (string_ch), operand_field_rules.g4 (op_list_dat) | C98, C99 |
| Hvs | lsp/lsp_context.cpp (hover_text, hover, find_hover, details of complete_var), address.cpp (to_string), lsp_analyzer.cpp (definitions of variable symbols in open code); sections have given names, texts of macros and instructions and kinds of definitions in macros are given | C100, C101 |
| Tks | lexing/token_stream.cpp with fetch, sync, get, consume, seek and setup of antlr4::BufferedTokenStream (ANTLR runtime, not in the repository); the lexer is the list of tokens it delivers; getText and append (never called) are left out | C102, C103 |
| Col | semantics/collector.cpp and parsing/parser_impl.cpp (get_next, process_ordinary, process_lookahead, process_instruction, process_statement, parse_operands, parse_lookahead_operands) with the actions of lab_instr, look_lab_instr and of the operand rules; what the rules read, the status of instructions and the search for attributes are parameters; ranges are left out | C104 |
| Err | parsing/parser_error_listener.cpp, parsing/parser_error_listener_ctx.cpp, parsing/error_strategy.h (reportError; getMissingSymbol is never reached, as single token insertion is off); the exceptions of ANTLR, the set of expected tokens and the adjustment of positions are parameters | C105 |
| Exp | expressions/conditional_assembly: resolve_expression_tree, is_character_expression, evaluate and convert_return_types of every term and operator, ca_expr_policy.cpp (kinds of functions, parameters and operands), context/common_types SET_t, semantics/variable_symbol.cpp and concatenation(_term).cpp as far as strings and names of created symbols use them; grouping of lists is Grp, single operators and functions are Ca, reading variables, symbols and attributes is given | C106 |
| Und | statement_provider.cpp, members_statement_provider.cpp:31-64, concatenation.cpp:175-199, operand_impls.cpp:447-490, get_undefined_attributed_symbols of all CA expressions; not modelled: null expressions after syntax errors, diagnostics dropped with the search's own evaluation context | C107 |
| Ard | ca_processor.cpp:149-166, 475-600 (AREAD), parser_impl.cpp:63-74, aread_time.cpp; the clock is a parameter | C108 |
| Cfg | config/proc_conf.cpp, config/pgm_conf.cpp | C109 |
| Sup | lib_config.cpp, workspace.cpp (delete_diags, end of parse_file), feature_workspace_folders.cpp (configuration) | C110 |
| Svr | context/hlasm_context.cpp (add_system_vars_to_scope, add_global_system_vars: the values) | C111 |
| Cont | clients/vscode-hlasmplugin/src/customEditorCommands.ts:23-200, continuationHandler.ts:26-72 for one cursor; the editor (application of edits, clamping of positions) as described in the file; placing of the cursor not modelled | C112 |
| Uri | language_server/src/feature.cpp:27-104, dap_feature.cpp:23-42 (not the branches for Windows); percent coding, URI parts and lexically_normal of the libraries as documented | C113 |
| Fld | lexer.cpp:100-116; parser_impl.cpp:114-196, 214-267; hlasmparser.g4:186-223; machine_expr_rules.g4:104-141; label_field_rules.g4:123-145, 254-256; id_storage.cpp:49-56; ca_constant.cpp:46-70 (not literals, what follows a syntax error, fields with variable symbols) | C114 |
| Ses | dap_session_manager.cpp, dap_session.cpp, dap_message_wrappers.cpp, message_router.cpp, dispatcher.cpp (loop) | C115 |
| Prx | clients/vscode-hlasmplugin/src/hlasmDebugAdapterFactory.ts (the local socket and the adapter); JSON reading and printing, and the unary plus on texts that are not all digits, are parameters; Buffer.slice and indexOf as documented by Node | C116 |
| Det | clients/vscode-hlasmplugin/src/configurationsHandler.ts, hlasmLanguageDetection.ts, eventsHandler.ts (open, active editor, save); path.join and toUpperCase are parameters; prompts and templates for new configuration files are not modelled | C117 |
| Caf | operand fields of SETA from characters to values: lexing of names, numbers, self-defining terms, the CA operand grammar, list grouping, evaluation. Not: strings, attributes, functions, created names (stop at the grammar), continuation lines | C118 |
| Cal | ca_processor.cpp 373-443 (prepare_AIF, process_AIF), ca_operand_rules.g4 17-33 | C119 |
| Prg | ca_processor.h 100-122 (process_SET), ca_processor.cpp 92-147, 168-197, 256-260, 296-371 (SET targets, sequence symbols, ANOP, AGO), hlasm_context.h 230-243, context_manager.cpp 34-89 | C120 |
| Ems | language_server/src/emscripten_server_streams.cpp (all but the destructor); Buffer.indexOf, Buffer.slice, Number by their documentation, the escapes in the JavaScript literals taken for CR and LF | C121 |
| Paint | clients/vscode-hlasmplugin/src/semanticTokens.ts (constructor, askForTokens' handling of answers, applyDecorations, colorize), eventsHandler.ts 94-102; not modelled: when tokens are asked for, theme colours, the registration of the feature | C122 |
| Pth | utils/src/emscripten_path.cpp 26-87 (is_absolute, absolute, join, lexically_normal, both platforms), native_path.cpp (the same, Linux), workspace.cpp 49-51, 366-374, library_local.cpp 97, file_manager_impl.cpp 128-130; not modelled: native Windows, the listing of directories itself | C123 |
| Rel | workspace.cpp 134, 400-402, utils/src/emscripten_path.cpp 90-99 and native_path.cpp (lexically_relative; std::filesystem by its documentation); the choice among the entries is Conf (C12) | C124 |
| Fnd | the composition of Uri, Rel, Conf and Pth (Linux): workspace.cpp 130-147, 326-461, 515-526, library_local.cpp, file_manager_impl.cpp 113-143; what a directory contains is a parameter | C125 |

The comment at the head of each `X_Model.v` lists lines and simplifications.

## What is not modelled

* The parsers generated by ANTLR and their error recovery.  The grammar is modelled for
  machine, assembler, macro and conditional assembly operands (Gram, Mop, Cag), of data definitions (Ddg) and of model statements (Mdl); elsewhere statement fields arrive parsed.
* Page numbers and descriptions of instructions; the texts of diagnostics.
* The contents of the standard library: JSON library, file system, `std::regex` beyond
  the fragments used by wildcards and by completion, hash table internals (iteration order is arbitrary).
* Memory management: lifetime of shared objects, exhaustion of memory.
* Integer overflow of address arithmetic (unbounded integers; noted where it applies).

## Oracles and assumptions of the theorems

No theorem depends on an axiom of this development.  What enters from outside is a
quantified variable of the theorem:

* Framing/Sys: the byte stream is any list of bytes; threads run in any order.
* Tok: `std::sort` is any sorted permutation.
* Diag: a file name is any byte string without NUL.
* Conf/Route: hash tables are lists in any order.
* Ws: every operation carries its own analyser (which files it loads, visits, whether it
  is cancelled).
* Var: operand expressions are arbitrary procedures reading variable symbols.
* Ops: the instruction table and the library are arbitrary functions.
* Br: everything except control is an abstract state; statements change it arbitrarily.
* Lex: `isspace` of characters beyond one byte is any function.
* Nav: the order of the macros and files is any; the symbols of a statement are given with it.
* Occ: the table of identifiers and the character classes are any functions.
* DD: machine expressions are of any type with any outcome of evaluation; the location counter is a number.
* Look: the effect of a statement, the symbols whose attributes it asks for, its attributes and the macros are any functions of an abstract state.
* Dbg: the program is any list of statements, each with its place and nesting; the two
  threads, the commands and spurious wake-ups are interleaved arbitrarily; a read or write
  of one variable is atomic.

`Print Assumptions` below each property theorem prints "Closed under the global context"
for all of them: no axiom, of the standard library or otherwise, is used.

## Findings

Each is proved as a `_refuted` theorem about the faithful model, or named here as an
observation made while reading.

Language server
* C05: `finish_server_requests` returns at once when the queue is empty although the worker
  still runs a request of that server.
* C36: `main` evaluates its return value before joining the LSP thread, so lost input or an
  exit without shutdown can end with 0, and an orderly session with 1.
* C41: a `textDocument` message without `uri` throws on the LSP thread; `{"error":{}}`
  without id dereferences an end iterator (lsp_server.cpp:78); a configuration result that
  is no array throws on the worker; DAP `initialize` without `linesStartAt1` is undefined.
* C42: unknown requests and requests without `params` (also `shutdown`) get no answer; a
  notification named like a request is answered with id "".
* C35: sequence numbers of the debug adapter can be sent out of order.
* C06: file names that differ in a backslash share a URI.
* C02 (observation): two consumers of one queue could leave one asleep with work.
* `feature_text_synchronization.cpp:102` takes the address of the first change of an empty
  list (observation).

Text and workspaces
* C08: overlong encodings and surrogates are kept as they are.
* C09: a column beyond the end of a line walks into the following lines.
* C10: an edit that separates or creates CR LF breaks the line table; a range end beyond
  the last line is undefined behaviour.
* C43: reading an empty last line throws.
* C11: `+` acts as a wildcard, `.` does not match line breaks, `?` is one byte.
* C12: a load that fails on pgm_conf.json clears groups but keeps programs; lookup throws.
* C13: A.hlasm or A.asm is used depending on hash order; names differing in case collide
  silently.
* C44: a dependency closed with unsaved text keeps it; watched-file changes never re-read
  loaded files.
* C45: files loaded but not visited are not tracked.
* C46: feature requests about configuration files or documents whose opening was cancelled
  dereference a null analyser.
* C15: documents outside every folder are served by folders with short display names;
  removal by path does not find folders added under a display name; of two folders with the
  same name the second is ignored; `rootUri` never matches; `/ws1` serves `/ws10`.

Ordinary assembly
* C16: multiplicities of common sections are subtracted the wrong way round; resolved
  spaces with a multiplicity count once.
* C17: `5-A` is computed as `A-5` (symbol.cpp:75).
* C18, C19: ORG with a negative displacement loses the high-water mark; displaced alignment
  spaces are forgotten; an area of unknown length is assumed to end aligned; the next LOCTR
  starts at the current location instead of the high-water mark; further counters align
  relative to themselves.
* C20: results can depend on the order of definitions outside the guard.
* C21: two kinds of cycle are never reported and make the check run forever; a duplicate
  label of a DS with unresolved length throws.
* Observations: EQU of an address with pending spaces drops constants
  (asm_processor.cpp:168-169); the collector's error flag is overwritten by the right
  operand (dependency_collector.cpp:69-83).

Conditional assembly and macros
* C22: unary minus of -2^31 overflows.  C23: shift by zero yields the count, SRA by 32 or
  more of a non-negative number gives -1, SLA can change the sign.
* C24: `A OR B AND C AND D` is grouped against the priorities; NOT is accepted between
  operands.
* C25: positions count UTF-8 bytes.  C26: `C2A` refuses what `A2C` wrote, `X2C` ignores a
  wrong second digit.  C27: a zero byte ends a text; a split character is read past its end.
* C47: comparing far-apart numbers overflows; different texts can compare equal.
* C28: an omitted SETx operand takes no element; a rejected SETx still creates its symbol.
* C31: the first SYSNDX is 0000; system variables can be assigned.
* C48: GBLx with another type binds silently to the existing symbol.
* C30: `(A,)` reads back as `(A)`; `((A)B,,C)` loses its second item.
* C29: a parameter named SYSLIST hides the list; `X=&V` for an unknown keyword is passed
  without substitution.  C49: the text of -2^31 overflows.
* C32: a macro defined after an OPSYN of its name is ignored; a non-symbol operand deletes
  the label; a deleted macro comes back through a library member.
* C38: sequence symbols on macro calls, LCLx/GBLx and MEXIT in open code are not
  registered, so a backward branch to them fails.

Lexer
* C39: the UTF-16 column of a token beginning with an astral character is one too large; all
  columns of the first line are one too small if the text begins with one; ignored text ends
  in the code point column.
* C40: the token after a statement is fetched before the statement is processed, so AREAD
  skips a comment or empty line directly after the call, loses a last line that is one token
  and not ended, and AINSERT FRONT puts its record behind one whose first token was fetched;
  a line with a lone carriage return is read again and again.
* C51: with AINSERT records, a comment record with column 72 filled, or a continued record
  with another one pending, makes `lex_continuation` loop forever while source is left
  (lexer.cpp:545-566: `consume` does nothing at the end of the record stream, `eof` needs the
  end of both).
* Observations: a word or blanks reaching column 72 of an inserted record swallow the
  continuation character when more records are pending (595-600); `.*` is looked for in the
  file even while a record is lexed (366); `double_byte_enabled_` would loop forever but is
  never set; `isspace` is called on code points above 255 (318, 523); AREAD resizes its
  result to 80 bytes, which can split a UTF-8 character (parser_impl.cpp:72).

Debugger
* C33: a continue sent while a step over is running leaves the step over in force.
* C34: continue does not take the mutex, so its wake-up can be lost; disconnecting while the
  analysis is about to stop makes it unlock a mutex twice; a second launch terminates the
  process; next before the start or after the end reads a null or dangling pointer.
* Observations: `variables()` keeps an iterator over an insertion that may rehash;
  references to the views are returned after the mutex is released; `disconnected_` and
  `step_over_depth_` are read and written without synchronisation; a breakpoint on line 0
  wraps around when lines start at 1.

Navigation
* C54: the text `MACRO / M / MACRO / N / MEND` (outer definition not closed, text ends behind
  the nested MEND) makes `transform_slice` read past the end of `copy_nests`
  (macrodef_processor.cpp:475-476, file_info.cpp:106); so does a closing MEND that is the first
  statement of a COPY member seen in the definition.
* C54: the slice of a COPY member in a macro body starts one statement too late, so symbols on
  the member's first line are looked up in open code.
* C55: the label of a nested MEND is recorded for the outer macro (lsp_analyzer.cpp decrements
  the nesting first) and is listed as a reference of the outer macro's label of that name.
* C56: after a cancelled analysis the open code is null; completing a variable or sequence
  symbol in a known file dereferences it (lsp_context.cpp:206-236).
* C57: variable symbols in the text or substring of a string (`&A SETC '&B'`) and in subscripts
  (`&A(&I)`) are not collected, nor are symbols of lists such as `EXTRN PART(A)`; `&()` leaves a
  null variable symbol that is dereferenced (ca_expr_rules.g4, `created_set_symbol`); `COPY A(B)`
  and `COPY 'A'` dereference a null operand (lsp_analyzer.cpp:250-253).
* Observations: ranges are inclusive at both ends, so of two adjacent symbols the first recorded
  is taken; statements executed repeatedly give a reference several times; the order in which
  overlapping slices overwrite each other is that of a hash table; `MACRO_line = line - 1` wraps
  for line 0 in `get_macro_documentation`.

Data definitions
* C58: `DC FE3'1'` — the exponent modifier right after the type is read as a type extension;
  `DC FLS3'1'` — a modifier without a value is dropped silently (`L.S3` even leaves the bit flag set).
* C59: operands behind the first are aligned relative to the first one, not to the location counter:
  `DC F'1',D'2'` at 4 takes 16 bytes instead of 12; `DC X'00',F'1'` at an odd address misplaces F.
* C59: a relocatable, complex or undefined duplication factor or length is silently taken as 0;
  a scale is truncated to 16 bits (`FS65539` is `FS3`).
* C60: the length of types A, AD and Y is only checked with a nominal value; `DS AL1000` passes and
  `DS 1073741824AL(-2147483648)` overflows to length 0.
* C61: L' of `X'12 34'` is 3 while the storage is 2; S' of `P'1.25'` is 0 while I' uses 2;
  a labelled `DC P(1)` throws std::bad_variant_access; an empty first operand with a label and an
  unresolved length further on dereferences a null pointer; a label with an empty first operand stays undefined.
* Observation: a type V with an unresolved duplication factor is not taken as dependent.

Machine instructions
* C62: `L 1,0(99)` and `MVC 0(1000),0(1)` are accepted: an index or length alone in the parentheses is not checked.
* C62: WFCSB, WFCDB, WFCXB, WFKSB, WFKDB, WFKXB replace operand 4 of an instruction with four operands
  (0 to 3): `operand_vector[4]` is written behind the end of the vector.
* C62: mnemonics of instructions with optional operands (XHHR, NHLR, LLCHHR, VFENEB, ...) are never accepted:
  the vector gets `optional` more places than the instruction has operands.
* C62: vector registers 16-31 are rejected (`vec_reg` has four bits); VZERO replaces operand 0 instead of 1.
* C63: `*` in the operands of an instruction at an odd location is the location before alignment.
* C63: wrong table entries: XC and STFLE (20-bit displacement), CLT and CLGT (index and no mask), CLIY and MVIY
  (12-bit displacement), EXRL, LHRL, LGHRL (immediate instead of relative operand), BASSM (RX: 4 bytes instead of 2).
* Observations: VCFPS, VSD, VSDS, VDDS, VMD, VOVM and seven mnemonics are in the tables twice; the operand
  numbers of diagnostics about mnemonics are those of the machine instruction.

Sections and symbols
* C64: `EXTRN X` of a symbol that is defined throws std::runtime_error instead of reporting; only the first
  operand of EXTRN is defined; WXTRN and START are not processed, so START's label stays undefined.
* C64: a CSECT without a label after a DSECT without a label gives E031 and stays in the DSECT.
* C64: LOCTR without a label gives E053 and then switches to (or creates) a counter with an empty name.
* C64: `X LOCTR` rejected with E031 and any expression operand (`A EQU 1`) create the private section.
* C65: EQU without a value is not reported and leaves its symbol undefined.
* C65: EQU copies the length of the leftmost symbol when it is still unknown and never learns it.
* C65: `ORG 'A'` is reported and then acts as `ORG`; more than three operands of ORG are accepted;
  `ORG A-B` (an unresolved address that cancels out) throws std::bad_variant_access.

COPY and lookaheads
* C66: `X COPY M`, when X is looked for, ends the lookahead in front of the first statement of M, one back; the
  next lookahead from before it reads element -1 of the vector of statements.
* C66: `COPY 'A'` in a lookahead or in a macro definition dereferences the null result of a cast.
* C66: a lookahead started by an instruction field (`&X SETC T'A` is not one; an instruction made from an
  attribute is) goes back to the line of the previous statement, so the following line numbers are wrong.
* C67: a member in which `X DS` without a usable definition follows a statement asking for an attribute of X
  repeats the lookahead for ever, because the lookahead neither finds X nor reaches the end of the source.
* C67: after a branch back, names between the place and the end of the last lookahead are not searched; those of
  macro calls were never recorded, so their attributes are unknown.
* C67: in open code COPY, MACRO and MEND with a sequence symbol are not seen by lookaheads.
* Observations: COPY executed inside a macro is read only when the macro has ended; a macro definition not ended in
  a macro goes on in open code; a lookahead that stopped at a named MACRO continues inside it as if outside.
  The clamping of positions at the end of the input (lexer.cpp:60-61) is not modelled.
* C04: finishing one server cancels the request that runs on another one.

Checks of assembler instructions
* C68: `ALIAS D'AB'`, `*PROCESS CODEPAGE(99999999999)` and a LIMIT of 2^64 are rejected without a diagnostic;
  `FLAG(PUSH)` is accepted but reported as A211; an ADATA text without apostrophes is reported and accepted, or
  reported twice; CODEPAGE diagnostics have no range; `CODEPAGE(X'')` fails an assertion.
* C69: `START 0`, `SPACE 0` (A148), `ICTL 16` (A127), `DROP A_B`, `ALIAS X'C1'` (inverted parity), `FAIL(MSG(3))` are
  rejected although valid; PUNCH counts the opening apostrophe; AINSERT takes 78 characters; `OPTABLE()` with an empty
  text, `CODEPAGE(X'100000474')`, `WARN(12AB)` and `LIMIT(-5)` are accepted.
* C70: a composite part of an operand loses its range: `*PROCESS FAIL(MSG(3))` is reported at 0:0.
* C71: simple options of *PROCESS are taken for undefined symbols, so a statement with one is never checked.
* C72: EQU without operands passes the check; DXD always reports A004 without a range.

Attribute references
* C74: T' of an element of a SETC array looks at the next element first (hlasm_context.cpp:604 uses the subscript as
  index without subtracting 1), so `T'&A(1)` of a one-element array is always O; K' of SYSLIST and SYSMAC without
  subscript is the length of element 1; N' accepts any subscripts; T' of a parameter `()` reads the first character of
  an empty string.
* C75: D', L', O', S', I' of a variable with empty text read the first character of an empty string.
* C76: no lookahead is started when the text of the variable has to be cut to find the symbol (`L'&X`, X=FIELD+2).

Positions in macro operands
* C77: the first character of a continued line is placed at column 71 of the line before (`offset > rest` instead of
  `>=` for the start of a range); behind an operand spanning lines positions are 16 columns off per line, since
  range_provider.cpp:97 counts 72 columns for a line where a continued line holds 56.

Completion and hovering
* C78: the expression of lsp_context.cpp:183 matches `" LR 1"` (instructions offered in the operand field, `[^*]` matches
  blanks) and matches neither `"A LR"` nor `"LABEL "`; on an empty last line the request throws std::out_of_range.
* C83: the keyword operand `K=(A(')'))(B('('))` is a list of one item, the same text as a positional operand is one value.
* C85: MACRO followed by a blank line defines a macro called ASPACE; an empty library member, or one with MACRO only, defines
  a macro without statements under the name of the member.
* C87: readings of stored statements are kept per kind of instruction only. `&OP 1,2` in a macro, called with PR and later with
  LR, gives an LR without operands; called with LR first, PR gets two. A name that OPSYN makes an instruction of conditional
  assembly after the macro was defined has no operands in the macro.
* C88: operands of conditional assembly that cannot be read, as in `&A SETA 1+(2`, are not reported as such: by the second
  alternative of op_rem_body_ca the field is a remark and the statement has no operands. The same holds for macro calls in
  open code (op_rem_body_mac). `AIF ((5)'A' EQ 'AAAAA').X` reads the duplication factor as an item of its own, so that the
  condition is not the one written; `((1)SLA(2))` in SETA is a list of (1) and a call of SLA, unlike `((1) SLA (2))`.
* C89: the field `C'&X',C'IT''S'` (and `C'IT''S',C'&X'`) is parsed again with one apostrophe, `C'IT'S'`, because the strings in
  front of and behind the operand with the first variable symbol are unescaped and put back unescaped; `C'A&&B',C'&X'` loses an
  ampersand in the same way.
* C90: `&A` with an empty value is no label, `&A.` or `&A&B` with empty values is the name "" and reported as invalid (E065).
* C79: hovering over, or any instruction completion with, a macro whose prototype or comments reach the end of a document
  that ends with a new line throws std::out_of_range (text_data_ref_t::get_line of the empty last line).
* C80: hover text of IPTE is `R,R[,R]M]]`; mnemonics of instructions with optional operands lose their needed operands
  (VFAEB: `[,M]` instead of `V,V,V[,M]`).

Variables in the debugger
* C92: a macro parameter may have the name of a SET symbol that every macro has (SYSNDX, SYSECT ...): both are
  shown, statements only read one.
* C92: SETA with two operands at subscript 2147483647 assigns an element whose number overflows an int when the
  array is shown.
* C92: the substring notation counts bytes, so a value can end within a UTF-8 character; the JSON library then
  refuses to write the answer and the `variables` request stays unanswered.
* C94: the scale of a symbol of a type without scale (X DC CS2'A') is shown although S'X is an error.
* debugger.cpp:359-371 (observation): an iterator into `variables_` is used behind insertions, which may rehash
  the table; the standard calls it invalid then.

Places of statements
* C95: COPY as the operation of a macro's statement after substitution (`&OP MEMBER` with &OP = COPY) enters the member
  below the macro, whose statements go on being read; the next processing_stack() reads element -1 of the member's
  statements.
* C95: while an attribute is looked for from within a macro, the innermost place is the macro's: labels of open code and
  diagnostics met in the lookahead get the file of the macro.
* C97: in a macro defined by a macro, statements that came into the outer one by COPY are kept with their position in the
  member but with the file of the inner MACRO statement.
* C97: a definition started in a member that ends before MEND: the statements after the member's end are kept with the
  member's file and with the position of the last statement in it.

Operands of DC and DS
* C98: behind = in a machine operand the rule data_def is followed by an optional index in parentheses. `=A(X)(2)` is
  both one definition (a value in parentheses and the nominal value (2)) and the definition A(X) with the index 2; the
  grammar lists the operand without index first. What the generated parser then does is outside the model.

Hovering
* C100: address::to_string tests `b.second > 1` only, so a section with a negative count is printed like one that is added:
  `X EQU BB-A` (sections A and BB) is shown as `BB + A + 0`, as is `Y EQU BB+A`. Spaces of unknown length are left out of the offset.
* C101: create_global_variable returns the existing global symbol whatever its type; GBLC in open code after GBLA in a
  macro is accepted silently, hovering shows a SETC variable and the variable is a SETA variable. Definitions are
  collected from statements that are rejected, too.

Tokens
* C102: next_token_on_channel(i) counts i - _p wanted tokens from _p although LT passes it an index that is already beyond
  hidden tokens; with a hidden token in between LT(2) gives the third wanted token. Only LT(1) and LT(-1) are called by
  the parser and the error strategy of the repository.
* C103: rewind_input drops the one token fetched ahead unless it is an EOLLN not directly behind an EOLLN. Behind a
  statement, a comment line and an empty line (or the end of the file) the token fetched ahead is such an EOLLN; it stays
  and is parsed as an empty statement before the statement that the input was rewound to (AGO, AIF, end of a lookahead).
* C104: process_lookahead asks for the processing status of the instruction without checking that there is one (process_ordinary
  checks). A line such as ` )` whose operation field cannot be read makes it use the value of an empty optional when it is
  looked over: undefined behaviour (C104_ahead_refuted). The statement is proved for lines whose operation is read.
* C104: looking ahead highlights the variable symbols of operation fields, and they are highlighted again when the line is read;
  nothing removes duplicates (C104_shown_refuted).
* C105: can_follow_sign and can_be_before_sign do not know NUM (nor APOSTROPHE, ATTR), so a statement with `A+1` and any syntax
  error is said to have a sign that is not followed by an expression (C105_sign_refuted).
* C105: if the decision began at the end of the statement, nothing is scanned and the message is "Only left and right
  paranthesis present" (C105_empty_refuted).
* C105: errors that ANTLR reports without an exception (tokens that do not belong into a repetition) give no diagnostic, and hide
  the next error (C105_silent_refuted).
* C106: a SETA or SETB symbol where characters are wanted inside an expression (right operand of a comparison of strings, parameter of a
  function, concatenation) is read as the empty string without a message: `('' EQ &N)` holds for every number (C106_numeric_refuted).
* C106: a T' or O' attribute in arithmetic is read as 0 without a message (C106_attribute_refuted).
* C106: ESYM, SYSATTRA and SYSATTRP give the empty string without a message (C106_functions_refuted).
* C106: `(2)` is refused as a truth value and `(2 AND 1)` is accepted (C106_truth_refuted).
* C106: `(UPPER('a') EQ 'A')` and `((2)'A' EQ 'AA')` are refused, since only a plain string or attribute on the left makes a comparison
  one of characters (C106_left_refuted).
* C107: references in the subscripts of variable symbols in the text of a string are not searched (ca_string.cpp:36-46 leaves out `value`): `&C SETC '&A(L'X)'` is evaluated with the unknown attributes of X although X is defined later (`C107_string_refuted`).
* C108: the record that AREAD assigns is cut after 80 bytes, not characters (parser_impl.cpp:71-72), so a line with a character other than ASCII may end in half a character; the value is then not UTF-8 and AINSERT of it, or a statement made from it, meets a conversion that throws (`C108_cut_refuted`; `C108_text` says exactly when).
* C109: `diagnosticsSuppressLimit` of pgm_conf.json is read as `unsigned` without a check: -1 becomes 4294967295
  (in the settings of the editor it becomes 0), 4294967296 becomes 0, `true` becomes 1, 1e10 is undefined behaviour.
* C110: when a configuration file changes, programs are analysed again without regard to the limit; a limit of 2^63
  or more in the settings of the editor becomes 0.
* C111: SYSTIME is hh:mm (the language reference has hh.mm); SYSMAC without a subscript is `(M,...,OPEN CODE)`, not the
  name of the macro.
* C112 (customEditorCommands.ts:174-186): typing n characters where exactly n blanks precede the continuation deletes columns 71-n to 70 instead of 72-n to 71: the character before the blanks is lost and a blank stays (`C112_type_refuted`).
* C112 (customEditorCommands.ts:146-160): backspace in column 1 of a continued line shifts the continuation right and joins no lines, as the size of an empty selection counts as 1 (`C112_backspace_margin_refuted`); a selection made towards the left margin is deleted without compensation (`C112_selection_margin_refuted`); backspace in column 72 pulls the continuation left (`C112_backspace_end_refuted`).
* C112 (customEditorCommands.ts:67-76, 117-123): overlapping edits, which the editor refuses: the delete key on a selection made from behind column 72 to the left (`C112_delete_across_refuted`), typing over selected blanks before the continuation (`C112_type_over_refuted`).
* C112 (continuationHandler.ts:34-42): continuing a line longer than 71 characters whose column 72 is blank, such as one with a sequence number, calls `String.repeat` with a negative number and fails (`C112_insert_refuted`).
* C113 (feature.cpp:87): `path_to_uri` leaves percent signs as they are: the diagnostics of `/A%42` are published for `/AB`, those of `/100%` for a URI that cannot be decoded (`C113_percent_refuted`, `C113_percent_end_refuted`); exact condition in `C113_write`.
* C113 (feature.cpp:44-53): a URI with a host gives a name relative to the directory of the server, except on Windows (`C113_host_refuted`).
* C114 (machine_expr_rules.g4, `$id.name`): the expression of a qualified symbol keeps the name only; Q.R and S.R are the same operand (`C114_qualifier_refuted`).
* C114 (lexer.cpp, lex_word): a word of more than 63 letters is no ordinary symbol; as an operand it is a syntax error rather than a name that is too long (`C114_long_refuted`).
* C114 (lexer.cpp:108-116): `reset` leaves creating_var_symbol_ and creating_attr_ref_ as the previous text left them; harmless as long as the token EOLLN of every text is read.
* C116 (hlasmDebugAdapterFactory.ts:58-79): A frame whose first header field is not Content-Length (the protocol allows other fields) silences the connection: nothing sent later is read (`C116_other_header_refuted`). A header length that is no number makes the data handler throw at that and every later chunk (`C116_no_number_refuted`); with a negative length what is read depends on the chunks (`C116_negative_refuted`).
* C117 (eventsHandler.ts:126-129): the answer 'Do not track' to the question about missing configuration files also ends language detection: no document is recognised as HLASM any more (`C117_untracked_refuted`).
* C117 (configurationsHandler.ts:97, 190-191): when proc_grps.json is removed, the patterns read before stay in force, whatever pgm_conf.json says (`C117_stale_refuted`).
* C117 (hlasmLanguageDetection.ts:58, 67): lines are split at line feeds only; with CRLF line ends an empty line counts as a statement without operation (`C117_returns_refuted`). A name with characters beyond ASCII can be selected by the editor and not by the server (`C117_server_unit_refuted`).
* C118 (ca_expr_list.cpp:174-185): `(NOT)` is reported as lacking a term even if NOT is a symbol with a value, while `(NOT+0)` is its value (`C118_not_refuted`).
* C118 (ca_operator_unary.cpp:110-118): `-X'80000000'` as a SETA operand overflows a signed 32-bit integer, undefined behaviour (`C118_minus_refuted`).
* C119 (ca_expr_policy.cpp, ca_expr_list.cpp:115-155): `AIF (1 OR 0 AND 1 AND 0).X` does not branch (`C119_grouping_refuted`); `(&M LT 1)` with &M = -2^31 overflows (`C119_compare_refuted`); `(5)` is refused but `(5 AND 1)` is true (`C119_number_refuted`); an empty text is 0 in a comparison and CE015 by itself (`C119_empty_refuted`).
* C120 (ca_processor.h:100-122): `&A SETA &A+1` with &A undefined is not reported and gives 1, since the variable is created before its operand is evaluated (`C120_created_refuted`); a SETA whose operand is in error assigns 0 over the old value (`C120_overwritten_refuted`).
* C121 (emscripten_server_streams.cpp:104-126): a message whose first header is not Content-Length blocks the WebAssembly server for good, though the native one reads it (`C121_order_refuted`); `Content-Length: abc` makes data_end NaN, the buffer stays and the loop never ends (`C121_number_refuted`); a negative length makes the result depend on chunk boundaries (`C121_negative_refuted`).
* C122 (clients/vscode-hlasmplugin/src/semanticTokens.ts:86): an answer without tokens is ignored, so the colours of deleted text stay (`C122_empty_refuted`).
* C122 (semanticTokens.ts:39-44): when a document changes its language the table of its decoration types is dropped without disposing them, so the colours stay in the editor and remain among the new ones when it becomes HLASM again (`C122_language_refuted`).
* C123 (utils/src/emscripten_path.cpp:75-87): in the WebAssembly server on Windows a path that goes above the root of a drive loses the drive and becomes relative (`C123_above_refuted`).
* C123 (emscripten_path.cpp:39-73): there a path that begins with one separator is not taken from the drive of the workspace, but loses the drive (`C123_drive_refuted`).
* C124 (utils/src/emscripten_path.cpp:90-99): in the WebAssembly server on Windows a file on another drive than the workspace gets a name like `..\..\D:\a\X`, which leads nowhere (`C124_drives_refuted`).
* C115: A finished debug session stays in the manager's map until the next registration, so messages addressed to it are queued for ever in the meantime (`C115_ended_refuted`). A registration with a negative number is accepted and wraps to 2^64 + z; no message under the number given reaches that session (`C115_negative_refuted`).

## Trusted base

Coq's kernel (coqc and coqchk 8.16.1); what `Print Assumptions` prints below each
property theorem (no axiom); the constants of the standard library's sealed module
`Coq.ssr.ssrunder.Under_rel`, which coqchk lists as axioms because loading `Lia`/`Zify`
loads that file (no theorem uses them); the faithfulness of the model to the C++ text, which was established by
reading only.

{"id": "C01", "title": "Parsing always returns", "statement": "For every source text, `file` returns either Ok with a list of statements or a recoverable nom Error. It never panics (no out-of-range index such as v[0], no unwrap), never loops forever, and never answers Incomplete or Failure.", "quantifier": "all input strings of any length and nesting", "why_tests_cant": "Tests try a few dozen short strings; a hang, a missing-index panic or an Incomplete may be triggered by one particular string only.", "anchors": ["src/ast/mod.rs: file", "src/ast/helpers.rs: lo_name, up_name, operator, single_line_comment", "src/ast/expression/string.rs", "src/ast/expression/mod.rs: expression", "src/ast/type_/mod.rs: type_"]}
{"id": "C02", "title": "Success means the whole file was read, and it is never empty", "statement": "If `file` returns Ok((rest, ast)) then rest is empty and ast contains at least one statement; hence a file that is empty or only whitespace is rejected.", "quantifier": "all input strings", "why_tests_cant": "Silent truncation would show only on inputs whose tail is not understood.", "anchors": ["src/ast/mod.rs: file", "src/ast/statement/mod.rs: statements"]}
{"id": "C03", "title": "Leading blank space never matters", "statement": "Prefixing any sequence of space, tab, carriage return and line feed characters to a source text does not change the answer of `file`, whether it is Ok or Error.", "quantifier": "all input strings and all blank prefixes", "why_tests_cant": "Two unbounded universals.", "anchors": ["src/ast/statement/mod.rs: statements"]}
{"id": "C04", "title": "The AST reflects the source text (grammar soundness)", "statement": "Whenever `file` accepts a text, the text is derivable, with exactly the returned AST, from a declarative grammar of the language (tokens, blank space with its indentation relation, and one production per AST constructor): nothing in the AST is invented, reordered or dropped, and every character of the text is accounted for.", "quantifier": "all accepted input strings", "why_tests_cant": "A test compares one AST with one string; a parser that drops or swaps a subtree in some combination of constructs passes all existing tests.", "anchors": ["src/ast/expression/mod.rs", "src/ast/expression/function.rs", "src/ast/type_/mod.rs", "src/ast/statement/mod.rs: statement, statements", "src/ast/statement/module.rs", "src/ast/statement/import.rs", "src/ast/statement/export.rs", "src/ast/statement/type_declaration.rs", "src/ast/statement/port.rs", "src/ast/statement/infix.rs", "src/ast/statement/comment.rs"]}
{"id": "C05", "title": "Every produced AST is well formed", "statement": "Every AST returned by `file` satisfies the structural invariants a consumer relies on: every name is a lexically valid name and never a reserved word, operators are never reserved, qualified names, lambda argument lists, let blocks, case branches, type declaration constructor lists and exposing lists are non-empty, the operator of a BinOp is a Variable holding one operator or `as`, Access always has a variable and at least one field, record-extension types have a type variable and at least one field, infix precedences are in 0..2^63-1.", "quantifier": "all accepted input strings", "why_tests_cant": "Invariant over the range of the parser, i.e. over infinitely many outputs.", "anchors": ["src/ast/helpers.rs", "src/ast/expression/core.rs", "src/ast/type_/core.rs", "src/ast/statement/core.rs"]}
{"id": "C06", "title": "Print/parse round trip for every AST", "statement": "For every well-formed list of statements there is a source text (given by an explicit printer) which `file` accepts and for which it returns exactly that list; no well-formed AST is out of reach.", "quantifier": "all well-formed ASTs, of any size and nesting", "why_tests_cant": "Infinite family of ASTs; ordered choice makes the success of one production depend on the failure of all earlier ones on all texts.", "anchors": ["src/ast/mod.rs: file", "src/ast/statement/mod.rs: statement", "src/ast/expression/mod.rs: expression, term"]}
{"id": "C07", "title": "Re-printing is a fixed point", "statement": "If `file` accepts a text s with AST a, then the printed form of a is accepted and again yields exactly a: formatting a file and parsing it again loses nothing.", "quantifier": "all accepted input strings", "why_tests_cant": "Needs both the invariant on the range of the parser and the round trip on that range.", "anchors": ["src/ast/mod.rs: file"]}
{"id": "C08", "title": "Lower-case names: exact language", "statement": "The lower-case name parser succeeds with name n and rest r exactly when the text is n followed by r and either n is `_`, or n is a lower-case ASCII letter followed by ASCII letters, digits and underscores, is the longest such prefix and is not one of the 15 reserved words.", "quantifier": "all input strings", "why_tests_cant": "Maximal munch and the reserved-word test (`in` versus `input`) quantify over all names and all continuations.", "anchors": ["src/ast/helpers.rs: lo_name, RESERVED_WORDS"]}
{"id": "C09", "title": "Upper-case and module names: exact language", "statement": "Upper-case names are exactly the longest prefix [A-Z][a-zA-Z0-9_]*; module names are exactly the longest dot-separated non-empty sequence of them, with a dot consumed only if an upper-case name follows it.", "quantifier": "all input strings", "why_tests_cant": "Unbounded number of segments and all continuations.", "anchors": ["src/ast/helpers.rs: up_name, module_name"]}
{"id": "C10", "title": "Operators: exact language", "statement": "The operator parser succeeds exactly on the longest non-empty run of the 20 operator symbols (including backslash), provided this run is not one of = . .. -> -- | : .", "quantifier": "all input strings", "why_tests_cant": "Maximal munch over all runs and continuations.", "anchors": ["src/ast/helpers.rs: operator, RESERVED_OPERATORS"]}
{"id": "C11", "title": "Numbers are kept verbatim, whatever their size", "statement": "Integer and float literals succeed exactly on an optional sign, a maximal digit run (and for floats a dot and another maximal digit run) and return exactly the consumed characters; no literal is too long.", "quantifier": "all input strings", "why_tests_cant": "Tests use numbers of at most three digits.", "anchors": ["src/ast/expression/integer.rs", "src/ast/expression/float.rs"]}
{"id": "C12", "title": "String literals: exact language and verbatim content", "statement": "A string literal parses exactly when the text starts with a triple-quoted string whose content has no double quote (content returned verbatim, line breaks allowed), or else with a quote, a content made of two-character escapes backslash-backslash and backslash-quote and of characters other than quote and line feed, and a closing quote; the returned value is the raw text between the quotes.", "quantifier": "all input strings", "why_tests_cant": "Regex priority, escapes and the fallback from triple-quoted to single-quoted strings interact on all contents.", "anchors": ["src/ast/expression/string.rs"]}
{"id": "C13", "title": "Character literals: exact language", "statement": "A character literal is accepted exactly as quote, content, quote, where the content is any one character, standing for itself, or backslash x followed by two characters that u8::from_str_radix accepts in base 16 (two hex digits, or plus and one hex digit), standing for that code point.", "quantifier": "all input strings", "why_tests_cant": "All characters and all two-character codes.", "anchors": ["src/ast/expression/character.rs"]}
{"id": "C14", "title": "Comments: exact language", "statement": "A comment statement is either -- with the rest of the line (up to but excluding the line feed or the end of file), or {- up to and including the first -} that follows; its text is kept verbatim, and block comments do not nest.", "quantifier": "all input strings", "why_tests_cant": "First-occurrence and end-of-line searches over all texts.", "anchors": ["src/ast/statement/comment.rs"]}
{"id": "C15", "title": "Layout: which blank space is accepted and which indentation it yields", "statement": "The layout parser consumes the longest run of spaces, line feeds and -- comments; it fails if this run is empty. If the run holds no line feed it always succeeds and yields the current indentation when it is only spaces. If it holds a line feed it yields the number of spaces after the last line feed (0 if the run ends in a comment, modulo 2^32) and succeeds exactly when this number is in the requested relation (=, > or >=) to the current indentation.", "quantifier": "all input strings, all indentations, all three relations", "why_tests_cant": "Off-by-one errors in the indentation comparison appear only for particular combinations of blank lines, comments and columns.", "anchors": ["src/ast/helpers.rs: spaces_or_new_lines_and_indent, single_line_comment, IR"]}
{"id": "C16", "title": "Off-side rule for function arguments", "statement": "Within an expression parsed at indentation i, a token on a following line is taken as a further function argument if and only if that line is indented by strictly more than i; with at most i spaces it is left for the enclosing construct.", "quantifier": "all argument lists, all indentations, all columns, all continuations", "why_tests_cant": "Universally quantified over columns and texts.", "anchors": ["src/ast/expression/mod.rs: application_or_var"]}
{"id": "C17", "title": "Function application associates to the left for any number of arguments", "statement": "A head followed by n arguments separated by blank space yields n nested Application nodes with the head innermost and the arguments in source order; one term alone is returned unchanged.", "quantifier": "all lists of terms of any length", "why_tests_cant": "Tests stop at two arguments.", "anchors": ["src/ast/expression/mod.rs: application_or_var"]}
{"id": "C18", "title": "Binary operators nest to the right and ignore precedence", "statement": "A chain t0 op1 t1 ... opn tn is parsed as BinOp(op1, t0, BinOp(op2, t1, ...)) for every choice of operators, whatever their conventional or declared fixity.", "quantifier": "all operator chains of any length", "why_tests_cant": "Unbounded chains and all operator names.", "anchors": ["src/ast/expression/mod.rs: binary, operator_or_as"]}
{"id": "C19", "title": "Function types associate to the right for any arity", "statement": "A chain of types t1 -> ... -> tn yields TypeApplication(t1, TypeApplication(t2, ...)) with the types in source order; a single type is returned unchanged.", "quantifier": "all lists of types of any length", "why_tests_cant": "Tests stop at three types.", "anchors": ["src/ast/type_/mod.rs: type_annotation"]}
{"id": "C20", "title": "Parentheses around an expression do not change it", "statement": "If a text parses as expression e up to a closing parenthesis, the same text in parentheses parses, as a term, to the same e; whereas an expression padded with blanks inside the parentheses becomes a one-element Tuple, and a parenthesised non-function type becomes a one-element TypeTuple.", "quantifier": "all input strings", "why_tests_cant": "Ordered choice between operator sections, parentheses and tuples on arbitrary content.", "anchors": ["src/ast/expression/mod.rs: parens, tuple, term", "src/ast/expression/variable.rs: op", "src/ast/type_/mod.rs: type_tuple"]}
{"id": "C21", "title": "Infix precedence is the decimal value, with overflow rejected", "statement": "An infix declaration yields the number denoted by its digits in base ten when it is at most 2^63-1, and is rejected otherwise; it never wraps around.", "quantifier": "all digit strings", "why_tests_cant": "2^63 values and all longer digit strings.", "anchors": ["src/ast/statement/infix.rs"]}
{"id": "C22", "title": "Exposing lists and imports are reproduced exactly", "statement": "Exposing lists (all, functions, operators, types with no, all or some constructors), imports with optional alias and exposing list, and the three kinds of module headers are parsed to exactly the items written, in order, whatever number of spaces, line feeds (and comments where allowed) is used at the places where the grammar allows blanks.", "quantifier": "all exposing lists, imports and module headers; all spacings", "why_tests_cant": "Unbounded lists and spacings.", "anchors": ["src/ast/statement/export.rs", "src/ast/statement/import.rs", "src/ast/statement/module.rs"]}
{"id": "C23", "title": "elm-parser-check reports exactly the function names exposed by imports", "statement": "The names printed by elm-parser-check are, in source order and with repetitions, the function and operator names listed in the exposing clauses of import statements; type names and their constructors are not reported, and no other statement contributes.", "quantifier": "all ASTs", "why_tests_cant": "Recursive traversal of arbitrary nested export sets.", "anchors": ["src/check.rs: get_export_set_imports, get_imported_names, main"]}
{"id": "C24", "title": "elm-parser-dump visits exactly the .elm files, in order", "statement": "Given a directory, elm-parser-dump parses exactly the entries that are not directories, whose path is valid Unicode and whose name is a non-empty stem followed by .elm, in traversal order, one report each, up to the first traversal error (then it stops silently) or the first unreadable or non-UTF-8 file (then it panics); given a file it reports on that file alone; in quiet mode the report of a file says success if and only if `file` accepts its content.", "quantifier": "all directory listings and file contents", "why_tests_cant": "Unbounded listings with errors at any position.", "anchors": ["src/dump.rs: dump_file, dump_directory, main"]}
{"id": "C25", "title": "Declared and defined names may differ", "statement": "REFUTED EXPECTATION: a type signature attached to a definition is for the same name. The parser attaches the signature to whatever definition follows on the next line, for every pair of names.", "quantifier": "all pairs of names", "why_tests_cant": "Shows that consumers must compare the names themselves; holds for all names.", "anchors": ["src/ast/expression/function.rs: function"]}
{"id": "C26", "title": "Line-ending convention matters", "statement": "REFUTED EXPECTATION: replacing LF by CRLF in an accepted file leaves it accepted with the same AST. A carriage return is not blank space for the layout parser.", "quantifier": "all accepted files", "why_tests_cant": "A universally quantified invariance, refuted by a witness.", "anchors": ["src/ast/helpers.rs: spaces_or_new_lines_and_indent, new_line_and_same_indent"]}
{"id": "C27", "title": "A let entry without parameters and signature is always a binding", "statement": "In a parsed AST a let entry is a LetFunction only if it has a signature or at least one parameter; every other entry, in particular every destructuring, is a LetBinding whose target is a variable, list, tuple or field-name record.", "quantifier": "all accepted input strings", "why_tests_cant": "Depends on ordered choice over all texts.", "anchors": ["src/ast/expression/mod.rs: let_binding, let_bindings, let_binding_target"]}
{"id": "C28", "title": "A file must start like a statement", "statement": "If the first non-blank character of a text is not a lower-case letter, underscore, opening parenthesis, minus or opening brace, `file` rejects it; in particular a byte-order mark makes every file unparsable.", "quantifier": "all input strings", "why_tests_cant": "Universally quantified over the rest of the text.", "anchors": ["src/ast/statement/mod.rs: statement"]}
{"id": "C29", "title": "Recursion depth is bounded by the input length", "statement": "The nesting of recursive expression (and type) parser calls never exceeds the length of the text plus one, since every recursive call is made on a strictly shorter rest, and the answer does not depend on any larger recursion bound.", "quantifier": "all input strings", "why_tests_cant": "Needs a progress argument for every production.", "anchors": ["src/ast/expression/mod.rs: expression", "src/ast/type_/mod.rs: type_"]}
{"id": "C30", "title": "Every construct consumes a prefix and makes progress", "statement": "Whenever the statement, expression, term, type or type annotation parser succeeds it returns a proper suffix of its input as the rest.", "quantifier": "all input strings and indentations", "why_tests_cant": "Needed for all repetition combinators to terminate.", "anchors": ["src/ast/expression/mod.rs", "src/ast/type_/mod.rs", "src/ast/statement/mod.rs"]}
{"id": "C31", "title": "Record update needs layout before the closing brace", "statement": "REFUTED EXPECTATION: layout before a closing brace is optional. A record update whose closing brace directly follows the last field value is rejected, for all field lists and all layouts elsewhere; with layout before the brace it is accepted; and every accepted record update has layout there. The example file examples/BrowserElement.elm of the repository is rejected for this reason alone: with one blank inserted it is accepted.", "quantifier": "all field lists", "why_tests_cant": "Universally quantified over contents.", "anchors": ["src/ast/expression/mod.rs: record_update", "examples/BrowserElement.elm"]}
{"id": "C32", "title": "Type variables stop at the first capital letter or zero", "statement": "The type variable parser takes exactly the longest prefix [a-z][a-z1-9_]*: camel-case variables and variables containing 0 are cut, and reserved words are accepted.", "quantifier": "all input strings", "why_tests_cant": "All names and continuations.", "anchors": ["src/ast/type_/mod.rs: type_variable"]}
{"id": "C33", "title": "Every rendering of a syntax tree is accepted (grammar completeness)", "statement": "A text that renders a syntax tree according to the declarative rendering relation (tokens, the blank space and indentation each construct allows, and what may follow each construct) is accepted by `file`, with exactly that syntax tree; likewise for single statements, expressions and types with the given rest.", "quantifier": "all syntax trees and all their renderings, of any size and layout", "why_tests_cant": "Infinitely many trees and layouts; acceptance depends on backtracking order and on what follows each construct.", "anchors": ["src/ast/mod.rs: file", "src/ast/statement/mod.rs", "src/ast/expression/mod.rs", "src/ast/type_/mod.rs"]}
{"id": "C34", "title": "The tools decode source files as UTF-8 exactly", "statement": "A byte sequence is accepted as the content of a source file (or as a path) if and only if it is the UTF-8 encoding of a sequence of Unicode scalar values, and then the parser sees exactly that sequence; overlong forms, surrogates, values above U+10FFFF and truncated sequences are rejected.", "quantifier": "all byte sequences", "why_tests_cant": "Infinitely many byte sequences; the boundary cases are numerous.", "anchors": ["src/dump.rs: dump_file, dump_directory", "src/check.rs: main"]}
{"id": "C35", "title": "Blank space at the end of a file never matters", "statement": "Appending spaces, tabs, carriage returns and line feeds to a source text never changes whether `file` accepts it, and never changes the syntax tree, with one exception: if the text ends with a line comment statement, the appended blanks up to the first line feed become part of that comment's text. In particular a final line feed, or any blanks after one, change nothing at all.", "quantifier": "all texts, accepted or not, and all sequences of blank characters", "why_tests_cant": "Infinitely many texts; every parser that skips blank space, at every nesting depth, could behave differently at the end of the input.", "anchors": ["src/ast/mod.rs: file", "src/ast/statement/mod.rs: statements", "src/ast/helpers.rs: spaces_or_new_lines_and_indent"]}
{"id": "C36", "title": "Accepted texts cannot always be joined", "statement": "REFUTED EXPECTATION: if two texts are accepted, then joining them with a line feed is accepted with the concatenation of their syntax trees. A one-line case expression leaves the branch separator at indentation 0, so a definition of the second text can be swallowed as a further branch.", "quantifier": "exists a pair of accepted texts whose join is accepted with a different tree", "why_tests_cant": "The expectation is a statement about all pairs of texts; the interaction depends on indentation state.", "anchors": ["src/ast/expression/mod.rs: cases", "src/ast/statement/mod.rs: statements"]}
{"id": "C37", "title": "Debugging lines on standard output come from hex escapes only", "statement": "Everything the two tools print besides their documented messages is one line per parsed hex escape: each such line shows the value of the two characters after a quote, a backslash and an x that occur in a source file that was read (or an error if they are not a hexadecimal number). If no source file contains such an escape, the tools print their messages and nothing else. REFUTED EXPECTATION: that quiet mode prints one line per file; the same escape can be shown more than once because of backtracking.", "quantifier": "all file systems, directory traversals, command lines and file contents", "why_tests_cant": "The print statement sits in a parser that runs inside every speculative alternative at every nesting depth.", "anchors": ["src/ast/expression/character.rs: character_content", "src/check.rs: main", "src/dump.rs: dump_file, dump_directory, main"]}
{"id": "C38", "title": "Parsing takes exponential time on nested tuples and nested function types", "statement": "REFUTED EXPECTATION: that parsing is feasible (polynomial) for every accepted text. A definition whose body is n nested pairs, a text of 4n+5 characters, makes the parser call `expression` exactly 3*2^n-2 times; n nested function types, 7n+10 characters, make it call `type_` exactly 3*2^n-2 times. Hence no polynomial in the length bounds the number of calls.", "quantifier": "all nesting depths n; all polynomials", "why_tests_cant": "A statement about growth for all n; tests of large n do not finish.", "anchors": ["src/ast/expression/mod.rs: term, parens, tuple", "src/ast/type_/mod.rs: type_, type_tuple"]}
{"id": "C39", "title": "A rejected file's error shows where the first unreadable statement starts", "statement": "Parsing a file reads statements one after the other, blank space between them, from the first non-blank character on. The text is accepted exactly when only blank space is left after some statement; the tree is the list of the statements read. Otherwise the error carries the text from the error on, which is a suffix of the file starting at a non-blank character: either no statement can be read at the beginning (kind Alt, the whole text without leading blanks), or some statements were read and no further statement can be read at the reported place or it touches the previous statement (kind Eof).", "quantifier": "all texts, accepted or rejected", "why_tests_cant": "A statement about every rejected text; tests in the repository do not look at errors.", "anchors": ["src/ast/mod.rs: file", "src/ast/statement/mod.rs: statement, statements", "src/check.rs: main", "src/dump.rs: dump_file"]}
{"id": "C40", "title": "The syntax tree is no larger than the text", "statement": "The syntax tree of an accepted text has at most as many nodes as the text has characters, and the names and literals in it have at most twice as many characters as the text (twice because a record of variables stores each name as label and as variable).", "quantifier": "all accepted texts", "why_tests_cant": "A bound for inputs of every size and shape.", "anchors": ["src/ast/mod.rs: file", "src/ast/expression/core.rs: Expression", "src/ast/type_/core.rs: Type", "src/ast/statement/core.rs: Statement"]}
{"id": "C41", "title": "Printed files can be joined", "statement": "If two texts are accepted, then printing both syntax trees in the canonical form and joining the two printed texts with a line feed gives a text that is accepted with the concatenation of the two lists of statements (for arbitrary accepted texts this fails, C36).", "quantifier": "all pairs of accepted texts", "why_tests_cant": "All pairs of texts; whether a statement continues on the next line depends on what follows.", "anchors": ["src/ast/mod.rs: file", "src/ast/statement/mod.rs: statements"]}
{"id": "C42", "title": "Brackets nest and foreign characters occur only in comments and literals", "statement": "In every accepted text, outside comments, string literals and character literals, round, square and curly brackets are properly nested and all characters are letters, digits, underscore, comma, blank space or one of the twenty operator characters. In particular a text without quotes and comments that has unbalanced brackets or holds a character such as ; or a non-ASCII letter is rejected.", "quantifier": "all accepted texts", "why_tests_cant": "Ranges over all texts, nesting depths and characters.", "anchors": ["src/ast/mod.rs: file", "src/ast/helpers.rs: lo_name, up_name, operator", "src/ast/expression/mod.rs: term, parens, list, record, tuple", "src/ast/type_/mod.rs: type_tuple, type_record"]}
{"id": "C43", "title": "The printed output determines the result", "statement": "Everything elm-parser-dump and elm-parser-check write on standard output can be read back: two runs of the dump tool on files whose output is the same text parsed the files to the same syntax tree, or rejected them with the same error; the output of any run, on a file or a directory, quiet or not, determines the sequence of messages (with the paths, trees, errors and names in them) and debugging lines. With --quiet every message is a single line even if a path contains line feeds, and nothing but printable characters and line feeds is ever written, whatever the files and paths contain.", "quantifier": "all pairs of runs of a tool: all file systems, traversals, file contents, paths and choices of the standard library's formatting", "why_tests_cant": "It compares all pairs of syntax trees of any size and all strings with any characters; a test compares one output with one expectation.", "anchors": ["src/dump.rs: dump_file", "src/check.rs: main", "src/ast/expression/core.rs: Expression, Function, FunctionDefinition, FunctionSignature, LetEntry", "src/ast/statement/core.rs: Statement, ExportSet", "src/ast/type_/core.rs: Type", "src/ast/binop.rs: Assoc", "src/ast/expression/character.rs: character_content"]}
{"id": "C44", "title": "Parsing takes at most exponential time", "statement": "On every text, accepted or not, the calls of `expression`, the calls of `type_` and the lines printed while parsing together number at most 600^length. With C38 the worst case is exponential in the length from below and from above; in particular every parse terminates with this explicit bound.", "quantifier": "all texts", "why_tests_cant": "A bound on the running time for inputs of every size, including all rejected ones and all backtracking.", "anchors": ["src/ast/mod.rs: file", "src/ast/expression/mod.rs: expression", "src/ast/type_/mod.rs: type_", "src/ast/expression/character.rs: character"]}
{"id": "C45", "title": "The nesting of recursive calls is at most the length of the text", "statement": "At every moment of a parse, at most as many calls of `expression` and `type_` are open (have begun and not ended) as the text has characters, and every call ends. So the stack needed is linear in the length. REFUTED EXPECTATION: that the depth is bounded independently of the text: for every n an accepted text of 4n+5 characters needs n+1 nested calls of `expression`, one of 7n+10 characters n+1 nested calls of `type_`.", "quantifier": "all texts and all moments of their parse; all nesting depths n", "why_tests_cant": "The depth of the call stack over all inputs of any size; a test of a large depth ends in a stack overflow.", "anchors": ["src/ast/mod.rs: file", "src/ast/expression/mod.rs: expression", "src/ast/type_/mod.rs: type_"]}
{"id": "C46", "title": "elm-parser-dump on a directory reports every Elm file below it exactly once", "statement": "Run on a directory, `elm-parser-dump` reports every file of the tree (at any depth, also in directories named like Elm files) whose name has the extension `elm` and whose path is Unicode, exactly once, and reports nothing else: not directories, not links to directories, not what is behind such links. With `--quiet` the line says \"parsed successfully\" exactly for the accepted files and \"failed to parse\" exactly for the rejected ones. One Elm file that cannot be read (dangling link, not UTF-8, missing permission) ends the whole run with a panic, wherever it is.", "quantifier": "all directory trees, all orders in which the operating system lists a directory, all contents, with and without --quiet", "why_tests_cant": "A test fixes one tree; the claim is over trees of any shape, depth and content and over every listing order.", "anchors": ["src/dump.rs: dump_directory", "src/dump.rs: dump_file", "src/dump.rs: main"]}
{"id": "C47", "title": "Characters above U+00FF are interchangeable", "statement": "The parser looks at no character above U+00FF: if each such character of a text is replaced by any other such character (each occurrence on its own), then the text is accepted or rejected as before, the syntax tree is the same up to the same replacement in its names, literals and comments, and a rejected text's error has the same kind and the same place. So no letter, digit or blank of another script is ever treated as a letter, digit or blank.", "quantifier": "all texts, all replacements of characters above U+00FF by characters above U+00FF, uniform or per occurrence", "why_tests_cant": "There are over a million such characters and they may occur in any text at any place.", "anchors": ["src/ast/mod.rs: file", "src/ast/helpers.rs: lo_name, up_name, operator, single_line_comment", "src/ast/expression/string.rs: string", "src/ast/expression/character.rs: character", "src/ast/statement/comment.rs: comment"]}
{"id": "C48", "title": "Conditionals and lambdas are read exactly", "statement": "A text that starts with the word `if` is read as a conditional exactly when blank space in columns at or beyond the current indentation separates: `if`, a condition read at the current indentation, `then`, a result, `else`, a result; each result is read with the column it stands in as its new indentation. A text that starts with a backslash is read as a lambda exactly when one or more terms separated by spaces or tabs on one line follow, then blank space, `->`, blank space and a body. The tree holds exactly these parts and what is left is what the last part leaves. Nothing else can come of such a text: no other reading exists.", "quantifier": "all indentations, all texts, all trees and rests (both directions)", "why_tests_cant": "The parts are arbitrary expressions and the blank space arbitrary layout; that no other reading exists is a claim about all texts.", "anchors": ["src/ast/expression/mod.rs: if_expression", "src/ast/expression/mod.rs: lambda", "src/ast/expression/mod.rs: expression"]}
{"id": "C49", "title": "Case expressions are read exactly; branches obey the off-side rule", "statement": "A text that starts with the word `case` is read as a case expression exactly when it consists of `case`, the subject, `of` and one or more branches (pattern, `->`, result). The column of the first branch fixes the column of all: a further line that can be read as a branch belongs to the case if and only if it stands in exactly that column; a line to the left or to the right of it ends the case, and is left unread. All branches in the column are taken: what is left does not begin with a further one.", "quantifier": "all indentations, subjects, numbers of branches, patterns, results, layouts", "why_tests_cant": "The number of branches, their contents and the layout between them are unbounded, and maximality speaks about every continuation of the text.", "anchors": ["src/ast/expression/mod.rs: case", "src/ast/expression/mod.rs: cases", "src/ast/expression/mod.rs: case_expression"]}
{"id": "C50", "title": "Let expressions are read exactly; entries obey the off-side rule", "statement": "A text that starts with the word `let` is read as a let expression exactly when it consists of `let`, one or more entries, `in` and a body. The column of the first entry fixes the column of all: a further line that can be read as an entry belongs to the let if and only if it stands in exactly that column. An entry is a binding (pattern, `=`, value; the value fixes its own indentation), or, only where no binding can be read, a function.", "quantifier": "all indentations, numbers of entries, patterns, values, layouts", "why_tests_cant": "The number of entries, their contents and the layout between them are unbounded.", "anchors": ["src/ast/expression/mod.rs: let_binding", "src/ast/expression/mod.rs: let_bindings", "src/ast/expression/mod.rs: let_expression"]}
{"id": "C51", "title": "Functions and signatures are read exactly; the definition must begin the next line", "statement": "A signature is read exactly when the text consists of a name (or an operator in parentheses), spaces, a colon, blank space leading beyond the current column, and a type; a definition exactly when it consists of a name, terms separated by spaces, an equals sign and a body in a column beyond the current one. A function is a definition, or a signature followed by exactly one line feed, exactly as many spaces as the current column, and a definition; at the top level it is read as a function statement exactly then. REFUTED EXPECTATION: that a blank line or a comment may stand between a signature and its definition: then no function can be read, and a file that begins so is rejected.", "quantifier": "all columns, names, types, argument lists, bodies and layouts (both directions)", "why_tests_cant": "Both directions range over all texts; rejection for every kind of separation cannot be enumerated.", "anchors": ["src/ast/expression/function.rs: function_signature", "src/ast/expression/function.rs: function_definition", "src/ast/expression/function.rs: function", "src/ast/helpers.rs: new_line_and_same_indent"]}
{"id": "C52", "title": "Type and port declarations are read exactly", "statement": "Type alias, type, port annotation and port definition statements are read exactly when the text has the documented parts in order with the required blank space: the constructors of a type are separated by vertical bars standing at or beyond the column of the equals sign, all such constructors are taken, and what is left does not begin with another. No other statement form ever claims such a text. REFUTED EXPECTATION: that the declared type is a name applied to type variables: any type is accepted there, `type (A, b) = C` for instance.", "quantifier": "all texts, names, types, numbers of constructors and arguments, layouts (both directions)", "why_tests_cant": "Exactness and the absence of competing readings are claims about all texts.", "anchors": ["src/ast/statement/type_declaration.rs: type_alias_declaration", "src/ast/statement/type_declaration.rs: type_declaration", "src/ast/statement/port.rs: port_type_declaration", "src/ast/statement/port.rs: port_declaration", "src/ast/statement/mod.rs: statement"]}
{"id": "C53", "title": "Terms, lists, parentheses, tuples and records are read exactly", "statement": "A term is read exactly when the text is a name (qualified name, operator or commas in parentheses) with all the field accesses that follow it, an access function, a number, string or character literal, or a parenthesised, bracketed or braced phrase of the documented form: list elements and record fields are expressions separated by commas with optional layout, tuple components stand between arbitrary blanks, record updates need blank space before the closing brace. REFUTED EXPECTATIONS: that blank space inside parentheses does not matter: `( e )` is always a tuple with one component and `(e)` always `e`; that `{ r | a = 1}` is an update: without blank space before its closing brace no update is read.", "quantifier": "all texts, columns, nesting depths, numbers of elements and layouts (both directions)", "why_tests_cant": "The equivalence ranges over all texts; neither the accepted nor the rejected ones can be enumerated.", "anchors": ["src/ast/expression/mod.rs: term", "src/ast/expression/access.rs: access", "src/ast/expression/mod.rs: list", "src/ast/expression/mod.rs: tuple", "src/ast/expression/mod.rs: record", "src/ast/expression/mod.rs: record_update", "src/ast/expression/mod.rs: simplified_record", "src/ast/expression/mod.rs: parens"]}
{"id": "C54", "title": "Types are read exactly", "statement": "A type is read exactly when the text is a constructor with all the arguments that follow it beyond its column, a type variable, a record, a record extension with at least one field, a tuple, or a function type in parentheses, of the documented form; an annotation is exactly a maximal chain of types joined by arrows, associating to the right. REFUTED EXPECTATION, that a type may be put in parentheses: `(Int)` is a tuple with one component; only function types are grouped by parentheses.", "quantifier": "all texts, columns, nesting depths, numbers of arguments, fields and arrows, and layouts (both directions)", "why_tests_cant": "The equivalence ranges over all texts; neither the accepted nor the rejected ones can be enumerated.", "anchors": ["src/ast/type_/mod.rs: type_", "src/ast/type_/mod.rs: type_annotation", "src/ast/type_/mod.rs: type_constructor", "src/ast/type_/mod.rs: type_record", "src/ast/type_/mod.rs: type_tuple"]}
{"id": "C55", "title": "The language of the parser is the unique solution of a set of declarative rules", "statement": "There is a complete description of the language (types, expressions with layout, statements, files) as rules that do not mention the parser: the parser satisfies them, and any relations that satisfy them are the ones computed by the parser. Hence a text is accepted with a syntax tree exactly when the rules say so, rejected otherwise, and the rules are unambiguous.", "quantifier": "all texts, indentations and syntax trees, and all relations that satisfy the rules", "why_tests_cant": "Equality of two languages, including the rejected texts, cannot be established by samples.", "anchors": ["src/ast/mod.rs: file", "src/ast/statement/mod.rs: statement, statements", "src/ast/expression/mod.rs: expression", "src/ast/type_/mod.rs: type_"]}
{"id": "C56", "title": "Of the indentations only their order matters", "statement": "Moving the lines of a file to other columns does not change whether the file is accepted nor the result, if the new columns are in the same order as the old ones and columns 0 and 1 stay: re-indenting a file with wider or narrower steps keeps its meaning. Blank lines and lines that begin with a comment may stand anywhere. String literals and comments on one line keep their contents exactly; those that span lines move with their lines. Likewise gaps within lines may become wider or narrower, except after commas and single quotes; types, expressions and files are then read as the same trees. The exceptions are needed: column 1 is special in type aliases, `(A,  B)` is not `(A, B)` in a list of exposed constructors, and columns of 2^32 or more wrap around.", "quantifier": "all texts, all order-preserving changes of columns, all numbers and lengths of lines, and all nestings of expressions", "why_tests_cant": "Every pair of a file and a re-indentation of it is covered; tests see a few files in one layout each.", "anchors": ["src/ast/helpers.rs: spaces_or_new_lines_and_indent", "src/ast/helpers.rs: new_line_and_same_indent", "src/ast/mod.rs: file", "src/ast/expression/mod.rs: expression", "src/ast/type_/mod.rs: type_"]}
{"id": "C57", "title": "Rejecting an unfinished declaration can take exponential time", "statement": "The number of times the expression parser is called on a rejected text can be exponential in its length, even if the text holds no brackets at all: on `x = ` followed by `let a = ` repeated n times (8n+4 characters, an unfinished declaration) it is 2^(n+1)-1. So no polynomial in the length of the text bounds the work, not even for texts without parentheses, lists, tuples and records. This is a negative result: it refutes the claim that a bracket-free file is handled in time proportional to a polynomial of its size.", "quantifier": "all n; all polynomials", "why_tests_cant": "A growth rate is a statement about all sizes; and the larger texts of this family cannot be run to the end.", "anchors": ["src/ast/expression/mod.rs: expression", "src/ast/expression/mod.rs: let_expression", "src/ast/expression/mod.rs: let_bindings", "src/ast/mod.rs: file"]}
{"id": "C58", "title": "Declarations without expressions can be cut out of a file, put together and reordered", "statement": "An accepted file consists of one piece of text for each statement and the blanks between them. Each piece that is not a definition (module header, import, type, alias, port type, infix declaration, comment) is accepted as a file of its own and yields exactly that statement. Conversely, such a declaration placed before any accepted file that goes on in column 0 yields its statement followed by those of the file; so declarations that start in column 0 can be put in any order, and the statements come out in that order. It does not hold for definitions: the tree of a definition can depend on the contents of a comment in the line after it. The conditions are needed: an indented line continues a type, and a line comment needs its line feed.", "quantifier": "all texts, all numbers and kinds of statements, all permutations", "why_tests_cant": "Every declaration in every surrounding is covered; a parser with unlimited look-ahead may let a later line change an earlier statement, and for definitions it does.", "anchors": ["src/ast/mod.rs: file", "src/ast/statement/mod.rs: statements", "src/ast/statement/mod.rs: statement", "src/ast/type_/mod.rs: type_", "src/ast/helpers.rs: spaces_or_new_lines_and_indent"]}
{"id": "C59", "title": "Names do not matter: replacing names in a file replaces them in its tree", "statement": "Let every word of a file (a longest run [a-z][a-z1-9_]* or [A-Z][a-zA-Z0-9_]*; a name like fooBar is two words) be replaced by a word of the same kind, the same word always by the same word, with no keyword replaced and none arising, and leave what looks like a character literal alone. Then the new file is accepted exactly if the old one is, and its tree is the old tree with the words replaced in its names, strings and comments. The same holds for expressions and types, together with the text they leave over. In particular two names can be exchanged, and names are not even compared with each other: files that differ in their names only, each occurrence replaced on its own, are both accepted or both rejected, with trees of the same shape. The conditions are needed: keywords (also `effect` and `infix`, which are not reserved), the kind of a name, character literals, and words in place of names (as a type variable, fooBar is cut after foo).", "quantifier": "all texts, all renamings of words (also to words of another length, also identifying different names)", "why_tests_cant": "A parser could treat some name, some length of a name or some combination of names specially (as this one does with names that begin with a keyword or contain capitals); tests try a few names.", "anchors": ["src/ast/helpers.rs: lo_name", "src/ast/helpers.rs: up_name", "src/ast/helpers.rs: RESERVED_WORDS", "src/ast/type_/mod.rs: type_variable", "src/ast/statement/infix.rs: infix_declaration", "src/ast/mod.rs: file"]}
{"id": "C60", "title": "With bounded nesting, parsing takes polynomial time", "statement": "If at no moment of the parse of a text of length n more than d calls of the expression and type parsers are open, then their number together with the printed lines is at most 555 (n+1)^5 (215 (n+1)^3)^d, whether the text is accepted or not. So for every bound d on the nesting there is one polynomial for all texts: only nesting, not length, can make parsing exponential.", "quantifier": "all texts, all bounds on the nesting", "why_tests_cant": "A bound on the cost of all texts; backtracking makes the cost of a text depend on everything that is tried and given up.", "anchors": ["src/ast/expression/mod.rs: expression", "src/ast/type_/mod.rs: type_", "src/ast/statement/mod.rs: statements", "src/ast/mod.rs: file"]}
{"id": "C61", "title": "Definitions, declarations and comments can be put together in any order", "statement": "Take pieces of text, each accepted alone and beginning in column 0: groups of definitions whose strings, brackets and let/in are closed and which have no operator at the end or just before a comment; module, import, type and port-type declarations; comments. Put together in any order, with at least one line feed after each, they are accepted, and the statements are those of the pieces, in this order. So editing, adding or removing one piece never changes what another means, although the parser goes on reading across line feeds and backtracks from the next definition.", "quantifier": "all lists of pieces, all gaps of spaces and line feeds between them, all permutations", "why_tests_cant": "The parser tries to continue an expression into the next definition (operators, arguments, further case branches), so whether two definitions are independent depends on both texts; tests see only some pairs.", "anchors": ["src/ast/statement/mod.rs: statements", "src/ast/mod.rs: file", "src/ast/expression/mod.rs: expression, case", "src/ast/expression/function.rs", "src/ast/helpers.rs: spaces_or_new_lines_and_indent"]}
{"id": "C62", "title": "What a comment says never changes the program", "statement": "Take a text and change the contents of its line comments and block comments in any way that keeps them comments (no line feed in a line comment, no closing sign in a block comment, which is not empty and does not begin with a minus); the text has no two dashes right after an operator symbol, an opening parenthesis or the number of an infix declaration. Then the new text is accepted if and only if the old one is, and the two lists of statements differ in the contents of comment statements only: the program is the same.", "quantifier": "all texts, all comments in them, all new contents", "why_tests_cant": "Comments are read by the layout parser between any two tokens, by the statement parser and, when a parser backtracks, by both at the same place; whether some content is taken for code, or moves a column, depends on every position a comment can have. Tests see only some contents at some positions.", "anchors": ["src/ast/helpers.rs: single_line_comment, spaces_or_new_lines_and_indent", "src/ast/statement/comment.rs: comment", "src/ast/mod.rs: file", "src/ast/expression/mod.rs", "src/ast/type_/mod.rs"]}
{"id": "C63", "title": "The number of spaces and of blank lines never changes the program", "statement": "Take a text and change, in any places at once, the number of spaces between two words of a line (as long as there is at least one before and after the change; after a comma, one space stays one and more than one stays more than one), the number and contents of blank lines (as long as there is at least one before and after the change) and the contents of comments, but not the column at which a line begins, nor strings and character literals. Then the new text is accepted if and only if the old one is, and the two lists of statements are equal but for the contents of comment statements.", "quantifier": "all texts, all places with spaces or blank lines in them, all new numbers of them", "why_tests_cant": "Blanks are read by seven different parsers, some of which count them, compare the count with a column, stop at a line feed, or want exactly one space. That no place in the grammar tells two spaces from three is a statement about all texts; the formatter of a user may put any number of spaces anywhere.", "anchors": ["src/ast/helpers.rs: spaces, spaces0, spaces_and_newlines, spaces_or_new_lines_and_indent, new_line_and_same_indent", "src/ast/mod.rs: file", "src/ast/statement/mod.rs: statements", "src/ast/statement/export.rs: exports", "src/ast/statement/infix.rs", "src/ast/expression/mod.rs", "src/ast/expression/function.rs", "src/ast/type_/mod.rs"]}
{"id": "C64", "title": "Errors are local", "statement": "Divide a file at line starts into sections: comments, module declarations, imports, types, and definitions that begin with the name and its type. Let the text of each definition, right or wrong, close its strings and brackets, have an 'in' for every 'let' and no operator at its end. Then the file is accepted if and only if every section is accepted as a file of its own, and its statements are those of the sections. So an error in one definition is never hidden or repaired by the text before or after it, and correcting one definition leaves the statements of the others unchanged. Without types, there is exactly one way in which the text after a definition can repair it: a type at its end is given its definition.", "quantifier": "all lists of sections, all wrong definitions", "why_tests_cant": "A wrong definition can be read as a shorter right one, and what is left over could be taken for the beginning of the text that follows; a definition that stops too early could go on in the next one. That this never happens is a statement about all wrong texts and all texts around them; tests only contain some wrong texts.", "anchors": ["src/ast/mod.rs: file", "src/ast/statement/mod.rs: statements, statement", "src/ast/expression/function.rs: function, function_signature, function_definition", "src/ast/expression/mod.rs: expression", "src/ast/helpers.rs: spaces_or_new_lines_and_indent, new_line_and_same_indent"]}
{"id": "C65", "title": "What a literal says does not matter", "statement": "Replace in a text any strings by other strings, characters by other characters, the digits of numbers by other digits, and comments by other comments, for any choice of what may stand for what. Then the new text is accepted if and only if the old one is, and the statements are the same except for the literals, each of which is one that the choice allows in its place. A string may become one in three quotes and may look like code, like a comment or like the end of the line. The digits in names and the number of an infix declaration are no literals: they stay.", "quantifier": "all texts, accepted or not, all choices of replacements", "why_tests_cant": "A literal whose content decides how the text around it is read (a string with a keyword or a bracket in it, a number that is too long, a character that looks like an operator) is one among infinitely many; tests contain some literals, and all of them behave.", "anchors": ["src/ast/expression/string.rs: single_string, multi_string, string", "src/ast/expression/character.rs: character_content, character", "src/ast/expression/integer.rs: integer", "src/ast/expression/float.rs: float", "src/ast/expression/mod.rs: term, expression", "src/ast/statement/comment.rs: comment", "src/ast/statement/infix.rs: infix_declaration", "src/ast/helpers.rs: spaces_or_new_lines_and_indent", "src/ast/mod.rs: file"]}
{"id": "C66", "title": "Type annotations are optional and never change the definition", "statement": "If a definition with a type annotation is read, then the text without the annotation and its line feed is read as the same definition without annotation, and the rest of the text is the same. The same text of the annotation can stand before every other definition without annotation, also one of another name, and is then read as the annotation of this definition. In a let the entry that remains is the binding of the name, or the function if there are arguments. In a file of whole pieces (C61) all annotations can be removed at once.", "quantifier": "all texts at which an annotated definition is read, all other definitions, all files of pieces", "why_tests_cant": "The annotation and the definition are read by different parsers that share a line end; that the definition is read the same way with and without what stands before it, and for every type and every definition, is a statement about all pairs of them.", "anchors": ["src/ast/expression/function.rs: function, function_signature, function_definition", "src/ast/statement/mod.rs: statement", "src/ast/expression/mod.rs: let_bindings, let_binding", "src/ast/type_/mod.rs: type_annotation", "src/ast/mod.rs: file"]}
{"id": "C67", "title": "Operators are interchangeable: none is special", "statement": "If a text differs from another one in its operators only (in expressions, in parentheses as a function, in definitions and annotations of operators, in infix declarations and in the lists of exports and imports), then one is a file exactly if the other one is, and the trees differ in these operators only. There is no precedence, no infix declaration changes how an expression is read, and it does not matter which operators are defined. The reserved symbols, the sign of a number, the backslash of a function and symbols that hold the beginning of a comment are not operators in this sense, and examples show that these exceptions are needed.", "quantifier": "all texts, all choices of other operators for each of its operators, all relations between old and new operators", "why_tests_cant": "It compares the reading of every text with the reading of all texts with other operators; tests try a few operators in a few places, while a special treatment of one operator anywhere would break it.", "anchors": ["src/ast/helpers.rs: operator, name", "src/ast/expression/mod.rs: operator_or_as, operator_exp, binary", "src/ast/expression/function.rs: function_signature, function_definition", "src/ast/statement/infix.rs", "src/ast/statement/export.rs", "src/ast/mod.rs: file"]}
{"id": "C68", "title": "A phrase in brackets is read on its own: what follows it does not matter", "statement": "Take a phrase that begins with an opening bracket and ends with the bracket that closes it, where brackets in strings, character literals and comments do not count. If the parser of terms (or of types) accepts it, then it accepts it with every text after it, reads exactly the phrase, gives the same tree and leaves the text after it untouched. If the parser rejects it, it rejects it with every text after it. Exceptions: no comment may directly follow a symbol or an opening parenthesis inside, and a field can be taken from an operator in parentheses, so no dot may follow one. Examples show that these exceptions are needed.", "quantifier": "all columns, all phrases of any length and nesting, all texts after them", "why_tests_cant": "It is about all texts that can follow every phrase; a parser that looks ahead beyond the bracket for one special text would pass all tests that do not contain it.", "anchors": ["src/ast/expression/mod.rs: term, parens, list, tuple, record, record_update, simplified_record, expression", "src/ast/type_/mod.rs: type_tuple, type_record, type_record_constructor, type_, type_parameter"]}
{"id": "C69", "title": "On one line the column does not matter", "statement": "For a text without line feeds the parsers of expressions, terms and types give the same result for every column they are given as the column of the surrounding code. So a phrase in brackets on one line is read in the same way wherever it stands, whatever the column is and whatever follows it.", "quantifier": "all texts without line feeds, all pairs of columns, all texts after the phrase", "why_tests_cant": "The column is a 32-bit number and the text is arbitrary; tests only use small columns.", "anchors": ["src/ast/expression/mod.rs: expression, term", "src/ast/type_/mod.rs: type_", "src/ast/helpers.rs: spaces_or_new_lines_and_indent, opt_spaces_or_new_lines_and_indent, new_line_and_same_indent"]}
{"id": "C70", "title": "A list literal can be replaced by any other list literal", "statement": "Replace in a text any list literals by other list literals, in expressions, in patterns and on the left of definitions, for any choice of what may stand for what, where each of these literals is a list on its own (for literals on one line it is enough that they are accepted at column 0). Strings, characters, digits, comments and operators may be replaced at the same time as in C65 and C67. Then the new text is accepted if and only if the old one is, and the statements are the same except for what has been replaced; if only lists are replaced, the statements with every list emptied are equal. Tuples and records do not have this property, and lists on several lines have it only if their lines fit the column: examples show this.", "quantifier": "all texts, accepted or not, all choices of list literals of any length and nesting", "why_tests_cant": "It relates all contexts with all pairs of list literals; a parser in which the content of a list decides how the code after it is read would pass all tests that do not contain this combination.", "anchors": ["src/ast/expression/mod.rs: list, term, let_binding_target, expression", "src/ast/helpers.rs: spaces_or_new_lines_and_indent", "src/ast/mod.rs: file"]}
{"id": "C71", "title": "An expression is the same alone and in brackets", "statement": "Let u be a text whose strings, character literals, comments and brackets are complete (and in which no comment follows a symbol or an opening parenthesis directly). Before a closing bracket, whatever follows that bracket, an expression or type parser reads u exactly as at the end of the text: the same tree, the same part of u left, or failure in both cases. So every expression can be put in parentheses and gives the same tree, in square brackets it is the only element of a list, the body of a definition can be put in parentheses without any change of the result, and what stands in parentheses is an operator, a tuple or an expression that can be taken out of them.", "quantifier": "all complete texts u, accepted or not, on one line or several, all columns, all texts behind the bracket", "why_tests_cant": "It relates all expressions in two surroundings; a parser that at the end of the text, or before one of the brackets, stops earlier or later than elsewhere in some construct would pass all tests that do not combine this construct with that surrounding.", "anchors": ["src/ast/expression/mod.rs: expression, term, parens, list, binary", "src/ast/type_/mod.rs: type_annotation", "src/ast/helpers.rs: spaces_or_new_lines_and_indent"]}
{"id": "C72", "title": "A phrase in parentheses can be replaced by another one", "statement": "Take two expressions, or two tuples, that are complete on their own and, in parentheses, are neither a type nor a list of exported names. If in a file one of them, in its parentheses, is replaced by the other one at any number of places - in expressions, as an argument, in patterns, on the left of a definition, inside other brackets - then the new text is a file if and only if the old one is, and the trees differ only in the trees of these two phrases. Replacements of literals, operators, comments and lists may happen at the same time.", "quantifier": "all texts, accepted or not, all pairs of such expressions and of such tuples of any size, any number and combination of places", "why_tests_cant": "What stands in parentheses could decide how the code around them is read in arbitrarily many combinations: a parser that looks into a phrase to choose between a pattern, a tuple, an operator and a call would have to be tested on every phrase in every place.", "anchors": ["src/ast/expression/mod.rs: term, parens, tuple, let_binding, definition, lambda", "src/ast/type_/mod.rs: type_tuple, type_", "src/ast/statement/export.rs: exports, constructor_exports", "src/ast/mod.rs: file"]}
{"id": "C73", "title": "How a phrase in brackets is written does not matter, only its tree", "statement": "If list literals in a file are replaced by list literals with the same tree, or phrases in parentheses by phrases of the same kind (C72) with the same tree, at any number of places, then the result for the whole file is the same: the same syntax tree, or rejection. In particular an expression in doubled parentheses can be written with single ones, and the other way round, everywhere in a file.", "quantifier": "all texts, accepted or not, all such phrases of any size, any number and combination of places", "why_tests_cant": "It equates the results of two files for every way to write a phrase in every surrounding; a parser that in one surrounding looks at the text of a phrase instead of its tree would pass all tests that do not combine both.", "anchors": ["src/ast/expression/mod.rs: term, parens, tuple, list", "src/ast/type_/mod.rs: type_tuple, type_", "src/ast/statement/export.rs: exports", "src/ast/mod.rs: file"]}
{"id": "C74", "title": "Blank space decides what an operator symbol between two values means", "statement": "After a value and its arguments, symbols with blank space on both sides are a binary operator, and the rest is its right operand. A plus or minus sign with blank space before it and a digit directly after it starts a number, which is one more argument. Symbols that touch the value before them, or that have blank space before but not after them and start neither a number nor an access function, end the expression before that blank space; a definition with such a body at its start is rejected as a whole file, whatever follows.", "quantifier": "all values, all lists of arguments, all operator symbols, all blank space and comments between them, all columns, all texts that follow", "why_tests_cant": "The reading of a symbol depends on the characters on both sides of it, at every place where an expression can stand; tests can only try some operators, operands and spacings, and a change that reads one more spacing as an operator changes the meaning of files nobody tests.", "anchors": ["src/ast/expression/mod.rs: binary, operator_exp, application_or_var", "src/ast/helpers.rs: operator, spaces_or_new_lines_and_indent", "src/ast/expression/integer.rs: integer","src/ast/expression/float.rs: float", "src/ast/mod.rs: file"]}
{"id": "C75", "title": "A record can be replaced by another one", "statement": "In a file, any phrase in braces that is a record or a changed record, and that is neither a type nor the field list of an effect module, can be replaced by another such phrase: one text is a file if and only if the other one is, and the trees differ only in the replaced records. A record in the short form { a, b } can only be replaced by one in the short form. Records with the same tree can stand for each other without any change in the result, together with lists and phrases in parentheses that have the same tree.", "quantifier": "all files, all records of all sizes and depths, all sets of places where they are replaced, also together with other literals, comments, operators, lists and phrases in parentheses", "why_tests_cant": "The replaced phrase may stand in any place of any file and have any size; the claim is that its inside never decides how the rest is read.", "anchors": ["src/ast/expression/mod.rs: record, record_update, simplified_record, let_binding_target, term", "src/ast/type_/mod.rs: type_record, type_record_constructor", "src/ast/statement/module.rs: effect_module_declaration", "src/ast/mod.rs: file"]}
{"id": "C76", "title": "Only named kinds of phrase can be confused with one another", "statement": "No text can be read as two different kinds of statement, except that some operator declarations can also be read as definitions (infixl 5 f = 1); then it is a definition. No text can be read as two different kinds of expression, or as two kinds of left hand side of a let. The only kinds of term that give different results for one text are an access and a variable, a float and an integer, a term in parentheses and a tuple; of types, a tuple and a type in parentheses. So the alternatives could be tried in any order that keeps these pairs in their order, with the same result for every text, and any order that does not keep them changes the result for some text.", "quantifier": "all texts, all indentations, all pairs of alternatives, all orders of the alternatives", "why_tests_cant": "That two parsers have no text in common, or agree on all texts they share, is a claim about all texts; and there are 13! orders of the alternatives of a term alone.", "anchors": ["src/ast/statement/mod.rs: statement", "src/ast/statement/infix.rs: infix_declaration", "src/ast/expression/function.rs: function", "src/ast/expression/mod.rs: expression, term, let_binding_target, let_bindings, parens, tuple", "src/ast/expression/string.rs: string", "src/ast/type_/mod.rs: type_, type_tuple"]}
{"id": "C77", "title": "The symbols of the tree are the symbols of the text, in order", "statement": "Every syntax tree determines a sequence of symbols: its keywords, signs, names, numbers, strings, characters and comments from left to right. An accepted text consists of exactly these symbols in exactly this order, each spelled as its kind demands, with nothing between them but blank space, line comments and round brackets (a record field a = a may be written a), and no word of one symbol touches a word of the next. The same holds for expressions and types and the text they consume. So nothing is invented, dropped, repeated or moved; and two texts without comments and literals that have the same tree are equal up to blank space and round brackets, while the words of a text (its longest pieces of letters, digits and underscores) are the words of the symbols.", "quantifier": "all accepted texts, all expressions and types read at any indentation", "why_tests_cant": "A test compares one tree with one text; that no construct at any depth loses, swaps or repeats a part concerns all trees.", "anchors": ["src/ast/mod.rs: file", "src/ast/expression/mod.rs: expression", "src/ast/type_/mod.rs: type_annotation", "src/ast/statement/mod.rs: statement"]}
{"id": "C78", "title": "A command line that is not UTF-8 stops the tools before they do anything", "statement": "If every argument of elm-parser-check is the UTF-8 encoding of a text, then the run is that for these texts, and arguments after the file name do not change it. If any argument is not UTF-8, also one that is never used, the tool panics, prints nothing on standard output and opens no file. elm-parser-dump, whatever clap makes of its command line, prints nothing and opens no file if an argument is not UTF-8; otherwise it runs on the decoded path that clap has found, and does nothing if there is none.", "quantifier": "all command lines as lists of byte sequences, all file systems, all behaviours of clap", "why_tests_cant": "The claim ranges over all byte sequences in all positions and over all file systems; that no file is opened shows only in that no file system makes a difference.", "anchors": ["src/check.rs: main", "src/dump.rs: main"]}
{"id": "C79", "title": "Numbers, names and underscores never run into one another", "statement": "In an accepted text without comments, strings and characters, every longest piece of letters, digits and underscores is a single underscore, or consists of digits, or begins with a letter. So a numeral is never directly followed by a letter or an underscore (0xFF, 1e5 and 2nd are rejected wherever they stand) and no name begins with an underscore (_x is rejected wherever it stands).", "quantifier": "all accepted texts without comments and literals, all positions in them", "why_tests_cant": "The parser reads numbers and names in many places and stops at the first character that does not fit; that the rest of the word is never taken up by whatever may follow there concerns every pair of neighbouring constructs at every depth.", "anchors": ["src/ast/expression/integer.rs: integer", "src/ast/expression/float.rs: float", "src/ast/helpers.rs: lo_name, up_name", "src/ast/mod.rs: file"]}
{"id": "C80", "title": "The keywords of an accepted text nest, and count the phrases of its tree", "statement": "In an accepted text without comments, strings and characters, and without type variables called like a keyword, the words if, then and else occur exactly as often as there are conditionals in the tree, let and in as often as there are let expressions, and case and of as often as there are case expressions, at any depth. Their order in the text is that of properly nested if ... then ... else ..., let ... in ... and case ... of ...: a keyword is never read as a name, and none is left over.", "quantifier": "all accepted texts without comments and literals whose names are not keywords, all depths of nesting", "why_tests_cant": "A keyword could be taken for a name in any position at any depth; the claim counts all occurrences in all texts.", "anchors": ["src/ast/helpers.rs: lo_name", "src/ast/expression/mod.rs: if_expression, let_expression, case_expression", "src/ast/mod.rs: file"]}
{"id": "C81", "title": "Which characters may stand next to each other", "statement": "In an accepted text without literals and comments, a letter, digit or underscore is followed by another one, a blank or one of , . = : | ( ) ] }; a closing sign by a blank, a closing sign or a comma, and ) also by a dot; an operator sign by a blank, another operator sign or ), and + and - also by a digit; { by a blank, a letter, an underscore or }. So a+b, -x, f[1], f(x)(y) and (a)b are rejected wherever they stand, and a block comment can only be a statement of its own. The table of pairs of classes behind these rules is exact: every pair it allows occurs in some accepted text.", "quantifier": "all accepted texts without literals and comments, all positions in them, all depths of nesting", "why_tests_cant": "The rules speak about every two neighbouring characters of every accepted text; each combination of phrases at each depth could break them.", "anchors": ["src/ast/mod.rs: file", "src/ast/expression/mod.rs: expression", "src/ast/type_/mod.rs: type_", "src/ast/helpers.rs: spaces_or_new_lines_and_indent, operator"]}
{"id": "C82", "title": "Where a definition ends and the next one begins", "statement": "When a definition is followed, in an accepted text, by another definition, an operator declaration or an effect module, and the space between the two has only spaces and line feeds, then this space has a line feed and the second one begins in a column that is 0 or at most the indentation of some line of the first one. So after a definition on one line the next one begins in column 0, and two definitions never share a line with only spaces between them; a definition indented deeper is never split off silently.", "quantifier": "all accepted texts, all neighbouring statements in them, all shapes of the first definition's body and all layouts", "why_tests_cant": "Whether an indented line is taken as further arguments or as a new statement depends on the indentation which was current at the innermost last part of an arbitrarily deep expression.", "anchors": ["src/ast/mod.rs: file", "src/ast/expression/function.rs: function, definition", "src/ast/expression/mod.rs: application, expression", "src/ast/helpers.rs: spaces_or_new_lines_and_indent"]}
{"id": "C83", "title": "What has been read stays read, whatever is being typed after it", "statement": "Take complete pieces as in C61 (definitions, declarations, comments, each followed by a line feed) and after them, in column 0, any text that begins like a definition, a declaration or a comment but may be unfinished or wrong in any way: cut off in a string, in brackets, in a let. Then the statements of the pieces are read first and unchanged, and the outcome is the one of the last text alone: accepted exactly if it is accepted alone, with its statements after those of the pieces, and otherwise the error shows the same text as the error of the last text alone.", "quantifier": "all lists of pieces, all texts after them that begin in one of the listed ways, however they go on", "why_tests_cant": "The parser goes on reading across line feeds and backtracks over the whole rest of the file, so every unfinished text could in principle change what an earlier definition means; there are infinitely many places to cut a file.", "anchors": ["src/ast/mod.rs: file", "src/ast/statement/mod.rs: statement", "src/ast/expression/function.rs: function", "src/ast/expression/mod.rs: expression, case"]}
{"id": "C84", "title": "Windows line ends: where a declaration may be broken into lines", "statement": "In the text of a statement without comments and literals in quotes, a carriage return stands only inside parentheses or braces, or in the blanks right after an operator that has a space or a line feed before it. So in an accepted file in which every line ends in carriage return and line feed, every line break that is not between two declarations is inside parentheses or braces or follows an operator; a declaration without parentheses and braces can be broken only after operators. Brackets do not count: after `=`, `of`, `let`, before `+` or between list elements such a file is refused although the same file with plain line feeds is accepted.", "quantifier": "all texts a statement is read from, all accepted files with Windows line ends and no comments or quotes", "why_tests_cant": "A carriage return can stand at every position of every text; tests can show places where it is accepted or refused, but not that there are no other places.", "anchors": ["src/ast/helpers.rs: spaces_or_new_lines_and_indent", "src/ast/expression/mod.rs: tuple, record_update, simplified_record, binary", "src/ast/mod.rs: file"]}
{"id": "C85", "title": "Where a tab may stand", "statement": "In the text of a statement without comments and literals in quotes, a tab stands only inside parentheses or braces, in the blanks right after an operator that has a space or a line feed before it, or among the parameters of a lambda (since its backslash every bracket is closed again and every arrow is inside brackets). A declaration without expressions (module, import, type, alias, type of a port, infix) contains no tab and no carriage return at all. Between declarations tabs are free.", "quantifier": "all texts a statement is read from, all accepted files without comments and quotes", "why_tests_cant": "A tab can stand at every position of every text; tests can show places where it is accepted or refused, but not that there are no other places.", "anchors": ["src/ast/helpers.rs: spaces, spaces_or_new_lines_and_indent", "src/ast/expression/mod.rs: tuple, record_update, simplified_record, lambda, binary", "src/ast/mod.rs: file"]}
{"id": "C86", "title": "A definition never ends unfinished", "statement": "The text of a definition, or of the definition of a port, ends in a closing bracket, a quote, or a whole word that is a number or a name and not a reserved word. Module lines, imports, types, aliases and the type of a port end in ), } or a character of a name, infix declarations in a character of a name or of an operator. So a file cut off after a reserved word is never accepted with a definition as its last statement, and a file cut off after =, a comma, an opening bracket, an arrow or an operator is accepted only if its last statement is a comment, or an infix declaration of an operator with that sign.", "quantifier": "all texts a statement is read from, all accepted files, all reserved words and signs, any blanks at the end", "why_tests_cant": "A text can be cut off at any point of any expression, at any depth; tests can show some unfinished texts being refused, but not that none is accepted.", "anchors": ["src/ast/mod.rs: file", "src/ast/statement/mod.rs: statement", "src/ast/expression/mod.rs: expression", "src/ast/helpers.rs: lo_name, RESERVED_WORDS"]}
{"id": "C87", "title": "The first word of a declaration tells its kind", "statement": "A text that begins with a word is read only as a declaration that opens with exactly this word: module, port, effect, import, type, infix, infixl or infixr for the declarations of these kinds, and for a definition the very name it declares or defines. The other reserved words (where, as, exposing, alias, if, then, else, let, in, case, of) begin no statement at all; a name that is not effect or one of the infix words begins nothing but a definition of that name. A text that begins with another character is read only as a comment, or as the definition of an operator in parentheses. In an accepted file every declaration has its opening word in the text as a whole word.", "quantifier": "all texts, all words and names, all accepted files and each of their statements", "why_tests_cant": "Infinitely many names begin with a keyword (modules, typeA, infixed) and any text can follow; tests cannot show that none of them is taken for the keyword, and no keyword for a name.", "anchors": ["src/ast/mod.rs: file", "src/ast/statement/mod.rs: statement", "src/ast/statement/module.rs: module_declaration", "src/ast/helpers.rs: lo_name, RESERVED_WORDS"]}
{"id": "C88", "title": "Exactly which characters begin and end an expression, a type, a declaration", "statement": "An expression begins with a letter, a digit, an underscore, a quote, an opening bracket, a dot, a sign (+ or -) or a backslash, and ends in a letter, a digit, an underscore, a quote or a closing bracket. A type begins with a letter, ( or {, and ends in a letter, a digit, an underscore, ) or }. A statement begins with a small letter, an underscore, (, { or -, and a definition ends as an expression does. Each list is exact: with every one of these characters some phrase of the kind begins or ends, and with no other character.", "quantifier": "all characters, all texts, all indentations", "why_tests_cant": "There are over a million characters, each may be followed or preceded by any text; tests can show that a character is possible, but not that one is impossible.", "anchors": ["src/ast/expression/mod.rs: expression", "src/ast/type_/mod.rs: type_annotation", "src/ast/statement/mod.rs: statement"]}

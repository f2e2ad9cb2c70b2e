# Formal model of michaeljones/elm-parser in Rocq (Coq 8.16.1)

## What is modelled

Every parser of `/repo/src/ast/**` is modelled, function by function; each Coq
definition cites the Rust file and lines it models.

| Rust source | Coq file | Contents |
|---|---|---|
| (data types `char`, `&str`) | `Base.v` | characters are code points (`N`), texts are lists of them |
| nom 4.0.0 macros used by the crate | `Nom.v` | result type, combinators, primitive parsers on `CompleteStr` |
| regex 1.0.0 + nom's `re_matches!` | `Regex.v` | leftmost-first backtracking matcher, `find_iter` |
| `src/ast/**/core.rs`, `src/ast/binop.rs` | `Ast.v` | the AST types |
| `src/ast/helpers.rs` | `Helpers.v` | names, operators, blanks, layout |
| `src/ast/type_/mod.rs` | `Types.v` | types |
| `src/ast/expression/*.rs` | `Expr.v` | expressions, functions, let, case ... |
| `src/ast/statement/*.rs`, `src/ast/mod.rs` | `Stmt.v` | statements, files |
| `std::str::from_utf8` (via `read_to_string`, `Path::to_str`) | `Utf8.v` | UTF-8 encoding and decoding |
| `src/check.rs`, `src/dump.rs` | `Cli.v`, `Args.v` | the two command-line tools (what clap answers is a parameter) |
| the same parsers with their effects | `Trace.v`, `Output.v` | debugging output, calls of the recursive parsers |
| `#[derive(Debug)]` of `src/ast/**/core.rs`, the `println!`s of the tools | `Show.v` | the text on standard output |
| the error answered by `file` | `Fail.v` | remaining text and error kind |

The unit tests of the repository (157 assertions) are transcribed in `Tests.v`
and hold of the model by computation.  They are tests of the model's fidelity,
not proofs of properties.

### Results

A Coq parser returns `Ok rest value`, `Err` (nom's recoverable `Err::Error`) or
`Abort why` where `why` is `Incomplete`, `Failure`, `Panic` (e.g. `v[0]` on an
empty vector) or `OutOfFuel`.  Nothing is assumed total: repetition macros and
the recursion through `type_` / `expression` carry an explicit bound, and
reaching the bound is an observable `Abort OutOfFuel`, which is *proved* never to
happen (C01, C29).

### What is not modelled

* error contents (positions, kinds) below the level of a statement: all recoverable errors
  are the value `Err`.  `Fail.v` models the error of `file`, which is what the tools print;
* memory and machine stack: deep nesting can overflow the stack of the real
  program; C29 and C45 bound the recursion depth;
* time, except as the number of calls of `expression` and `type_` (C38, C44);
* the file system beyond a directory tree that does not change during a run: `Cli.v` takes
  `walkdir`'s traversal as an input, `Tree.v` computes it from a tree.

## Trusted base

1. Coq 8.16.1's kernel (with its `vm_compute` machine, used in `Tests.v` and in
   closed examples).
2. `Print Assumptions` of every theorem of MANIFEST.json is printed during the
   build by `Properties.v` ... `Properties45.v`.  It says "Closed under the global
   context" for every one of them: no axiom, not even of the standard library.
   (Loading the standard library's `ssreflect` support brings the seven declared
   names `Coq.ssr.ssrunder.Under_rel.*` into the environment; no theorem uses them.)
3. The reading of the Rust sources into the model (`Helpers.v`, `Types.v`,
   `Expr.v`, `Stmt.v`, `Cli.v`), supported by `Tests.v`.  `Trace.v` models the
   same parsers a second time with effects; `TraceProps.v` *proves* that forgetting
   the effects gives the first model, so only the placement of effects is trusted.
4. The models of nom 4.0.0 and regex 1.0.0 (`Nom.v`, `Regex.v`), whose sources are
   not in `/repo`.  The facts relied on:
   * `CompleteStr::at_eof()` is true, so no primitive answers `Incomplete`;
   * `alt!` and `opt!` recover from `Err::Error` only;
   * `many0!`/`many1!`/`separated_list!`/`separated_nonempty_list!` stop with
     success when a later turn fails or consumes nothing; the first element of a
     `separated_*list!` consuming nothing is an error;
   * the separator of a `separated_*list!` consuming nothing ends the list: this
     matters only for `separated_nonempty_list!(multispace0, statement)`: two
     statements that touch (`{-a-}{-b-}`) do not form one list.  This point was
     recalled from nom 4.0.0's `separated_nonempty_list` macro
     (`if i2_len == input.input_len()` ... break);
   * `is_a!`, `digit`, `space1`, `multispace` need at least one character;
   * `take!(2)` counts characters;
   * with the feature `verbose-errors` a failing `alt!` answers `Context::Code(input, Alt)` and
     a failing `eof!` answers `Context::Code(input, Eof)` (used by C23, C24 and C39);
   * `Err`, `Context`, `ErrorKind` and `CompleteStr` derive `Debug` (C43 only);
   * `re_matches!` collects `Regex::find_iter` and leaves what follows the last
     match.
5. The model of the standard library's `Debug` formatting in `Show.v` (C43 only): the
   escapes of characters, `PadAdapter`, and the layout of tuples, structs and lists.
   Points where releases differ are fields of the record `style`.
6. The model of walkdir 2 with default options in `Tree.v` (C46 only): an entry comes before
   what is below it, links below the starting directory are not followed.

Simplifications, each also stated beside the definition: a character is any `N`
(superset of Unicode scalar values); offsets count characters, not bytes; the
`i64` of an infix declaration is an `N`; `Box`es are transparent; `u32` wrap-around
of indentation *is* modelled.

## Plan, property by property

The proof layers, in build order:

* `Spec.v`: the small vocabulary used in the statements (blanks, names, digits, ...).
* `Good.v`, `Total.v`: judgement `ok k n p q` (below length `n`, parsers `p` and `q`
  agree, never abort, and consume at least `k` characters); gives totality, progress, fuel
  independence and the recursion equations of `type_` and `expression`.
* `Lexers.v`, `LexProps.v`: the regex engine on each regular expression of the crate is
  shown equal to "longest prefix" functions; exact (iff) specifications of the lexical parsers.
* `Layout.v`: exact (iff) description of the layout parser.
* `Seqs.v`: inversion lemmas of the combinators.
* `Grammar.v`, `Sound.v`, `SoundE.v`, `SoundS.v`: a declarative inductive grammar
  independent of the parsers; soundness by induction on the recursion bound.
* `Follow.v`, `Heads.v`, `Rules.v`: what may follow a construct; which characters a
  parser can start with; forward rules for the combinators.
* `Render.v`: the rendering relation (which texts render a tree); `CompleteT.v`,
  `CompleteE.v`, `CompleteX.v`, `CompleteS.v`: every rendering is parsed back.
* `Wf.v`: well-formed trees; every parser result is one. `Printer.v`, `Round.v`: a
  canonical printer, and its output is a rendering, hence the round trip.
* `Front.v`, `Trail.v`: blanks at the beginning and at the end of a file.
* `Chains.v`, `Exact.v`, `Occurs.v`, `Limits.v`: applications, operators, arrows,
  headers and imports exactly; what of the text a tree can contain; refuted expectations.
* `Keywords.v`: if, lambda, case and let exactly; the off-side rule.
* `Decls.v`: functions, type and port declarations exactly.
* `Brackets.v`: every term (names with accesses, literals, lists, parentheses, tuples, records) exactly.
* `Language.v`, `TypesExact.v`, `Solution.v`, `Unique.v`: the declarative rules of the language; the parser satisfies them; no other relations do.
* `Indent.v`, `Reindent.v`: texts that differ in their spaces only (without the parser); two runs of every parser on such texts.
* `BlowupLet.v`: the cost of unfinished `let` expressions. `Cut.v`, `CutS.v`, `CutFile.v`: what follows a declaration without expressions does not matter.
* `TwoRuns.v`: two runs of each combinator on related texts. `Names.v`: replacing names (without the parser); `Rename.v`, `RenameSim.v`, `RenameAll.v`: two runs of every parser on a text and its renaming.
* `Poly.v`: the cost of a parse in terms of length and nesting.
* `Whole.v`, `Steps.v`, `Indep.v`, `IndepAll.v`, `IndepTop.v`, `WholeCheck.v`: what follows a definition does not change it.
* `CommentSpec.v`, `Recomment.v`, `RecommentCheck.v`: texts that differ in their comments.
* `LayoutSpec.v`, `Relayout.v`, `RelayoutCheck.v`: texts that differ in their spacing.
* `Local.v`: a whole text is read alone as it is read before other text.
* `Inside.v`, `InsideAll.v`, `InsideCheck.v`: two runs on one phrase in brackets with two texts after it. `Flat.v`: two runs on one line with two columns. `Alone.v`, `AloneAll.v`: two runs on one text, at the end and before a closing bracket. `Phrases.v`: phrases in parentheses alone and with text behind them.
* `LiteralSpec.v`, `Literals.v`, `LiteralsAll.v`, `LiteralCheck.v`: literals in a text, two runs on texts that differ in them, and a checker.
* `Annot.v`: removing and adding a type annotation.
* `Order.v`: alternatives as a list, and when their order matters.
* `Leaves.v`: the symbols of a tree; `Args.v`: the command line as bytes.
* `Words.v`: the words of a text.
* `Pairs.v`: keywords counted and nested.
* `Touch.v`: which characters may stand next to each other.
* `Column.v`: where a definition ends and the next one begins.
* `Unfinished.v`: unfinished text at the end of a file.
* `Crlf.v`: carriage returns inside declarations.
* `Params.v`, `Clean.v`, `Tabs.v`: tabs inside declarations.
* `Finish.v`: how the text of a statement ends.
* `Fail.v`, `Errors.v`: the error of a rejected file.  `Utf8.v`, `Cli.v`, `CliProps.v`: the tools.
  `Tree.v`: directory trees and their traversal.  `Foreign.v`: replacement of characters.
* `Trace.v`, `TraceProps.v`, `Blowup.v`, `Cost.v`, `Depth.v`, `Output.v`: effects: debugging
  output, number and nesting of calls.
* `Size.v`: nodes and characters of a tree.
  `Show.v`, `ShowProps.v`: the printed text, and its reading back.
  `Joins.v`: the printer's continuation argument.  `Nest.v`: brackets and alphabet.
* `Properties.v` ... `Properties45.v`: the final theorems, one block per property, with a
  concrete instance beside each and `Print Assumptions`.

| id | modelled as | proved by |
|---|---|---|
| C01 | `file s` is `Ok` or `Err`, for all `s` | `ok` judgement through every combinator |
| C02 | `file s = Ok r l -> r = [] /\ l <> []` | inversion of `eof`, `separated_nonempty_list` |
| C03 | `file (w ++ s) = file s` for blank `w` | `multispace0` absorbs `w` |
| C04 | `file s = Ok r l -> G_file l s` with `G_file` an inductive grammar | induction on fuel |
| C05 | `file s = Ok r l -> wf_file l` | induction on fuel |
| C06 | `wf_file l -> file (print l) = Ok [] l` | induction on AST size with follow sets |
| C07 | `file s = Ok r l -> file (print l) = Ok [] l` | C05 + C06 |
| C08-C14, C32 | `p s = Ok r a <-> spec s r a` | lexer lemmas |
| C15 | `iff` description of the layout parser with an independent "trivia" grammar | induction on the run |
| C16 | argument taken iff indentation strictly greater | C15 + list loop |
| C17-C19 | result of n-ary chains for arbitrary lists of parts | list induction |
| C20 | `expression i s = Ok (")" ++ r) e -> term i ("(" ++ s) = Ok r e` (where no earlier alternative applies) | unfolding |
| C21 | value in base ten, `iff` with the bound | induction on digits |
| C22 | `iff`: a module header or import is parsed exactly when the text has the given shape | inversion and forward rules |
| C23 | `iff` description of every run of the checker; a name is printed iff an import lists it | induction on statements |
| C24 | `iff` description of every run of the dump tool on a file and on a traversal | induction on the traversal |
| C25, C26, C31, C36 | refutation: explicit witnesses, and the general statement where there is one | computation / inversion |
| C27 | part of range theorem | fuel induction |
| C28 | first character test | inversion of every alternative |
| C29 | `expression_n n i s = expression i s` for all `n > length s` | `ok` judgement |
| C30 | proper suffix | `ok` judgement + suffix judgement |
| C32 | `iff` descriptions of the literal parsers | lexer lemmas |
| C33 | every rendering (`Render.v`) is accepted with its tree; a text renders at most one tree | induction on the rendering |
| C34 | `decode bs = Some s` iff `bs` is the UTF-8 encoding of scalar values `s` | case analysis on lead bytes |
| C35 | `file (s ++ w)` compared with `file s` for blank `w`, all `s` | a relational judgement on runs, induction on fuel |
| C37 | the model with effects refines the model without; every debugging line comes from an escape in a text that was read | judgement `prints` through every parser |
| C38 | exact number of recursive calls on two families of texts; no polynomial bounds it | induction on the nesting depth |
| C39 | `file` with its error; `iff` description of acceptance and of each error | inversion of the statement loop |
| C40 | nodes and stored characters of the tree against the length of the text | induction on the grammar of C04 |
| C41 | `file (print l1 ++ LF ++ print l2) = Ok [] (l1 ++ l2)` | printing is appending; C06 |
| C42 | a stack relation `nest [] s []` for accepted `s`; the executable check for texts without comments and quotes | induction on the grammar of C04 |
| C43 | the text of the output (`screen`), for every style; equal texts come from equal lines | prefix-free decoding, induction on the printed value |
| C44 | the events of `file_t` (calls, printed lines) are at most `600 ^ length s` | a weighted bound for each parser, closed by induction on the recursion |
| C45 | at every moment at most `length s` calls are open; texts that need n+1 | events of each parser are balanced and of bounded height, induction on the recursion |
| C46 | on a directory tree, every Elm file is reported exactly once; one unreadable Elm file ends the run | induction on the tree: its traversal visits every node once; paths of different nodes differ |
| C47 | replacing characters above 255 by others commutes with parsing; the error keeps its place | each parser commutes with the replacement (logical relation over the combinators and the regex engine) |
| C48 | `expression i (L "if" ++ s) = Ok r e <->` the text has the parts; likewise for lambdas | inversion of every alternative; forward rules |
| C49, C50 | `expression i (L "case" ++ s) = Ok r e <->` the text has the parts, with a list of items in one column and no further item; a further item is taken iff its column is that of the first | generic exactness of separated lists; uniqueness of the layout before a token |
| C51 | `function i s = Ok r f <->` definition, or signature, line feed, same column, definition; other blank space between them gives `Err` | inversion; forward rules; uniqueness of the layout |
| C52 | `statement s = Ok r (TypeDeclaration n cs) <->` the parts (likewise alias, port annotation, port) | inversion of every alternative; forward rules; exactness of separated lists |
| C53 | `term i s = Ok r e <->` one of six forms, each spelled out for all texts | inversion of every alternative; forward rules; exactness of separated lists; mutual exclusion by first characters |
| C54 | `type_ i s = Ok r t <->` one of the forms of a type, each spelled out; the same for annotations | inversion of every alternative; forward rules; exactness of separated lists; mutual exclusion by first characters |
| C55 | `language T E S F` (Language.v: rules without the parser) holds of the parser and of nothing else | existence: the exactness theorems C45-C54 put together; uniqueness: induction on the length of the text, since every rule refers only to shorter texts |
| C56 | `columns P -> P 1 1 -> reindented gaps P s s' ->` `file s` and `file s'` are both errors or give trees that are `like` (Indent.v); for lists of lines with an increasing map of columns; for expressions and types with their rests | two runs of the parser side by side: a simulation lemma for every parser, by induction on the nesting |
| C57 | `length (L "x = " ++ lets n) = 8*n+4`, `file _ = Err`, `expression_calls _ + 1 = 2 ^ S n`; for all `c d` a rejected text without brackets with more than `c * length s ^ d + c` calls | exact trace of the run, by induction on `n` |
| C58 | `file s = Ok [] sts` -> pieces with `file piece = Ok [] [st]` for every `st` without expression; `file c = Ok [] [st]`, `file s = Ok [] sts`, the continuation in column 0 -> `file (c ++ g ++ s) = Ok [] (st :: sts)`; lists of declarations under `Permutation`; counterexample for definitions | on the declarative rules of the language: types read the same before any blank; induction on the length of the text |
| C59 | `renaming f -> spares_literals f s ->` `file s = Ok [] l` gives `file (rename f s) = Ok [] (map (names_statement (rename f)) l)`, `Err` iff `Err`; the same for `expression i` and `type_ i` with the rest of the text; corollary for exchanging two names | two runs of every parser on related texts (`TwoRuns.v`); the relation between the texts is symmetric, so only success has to be followed |
| C60 | `(forall a b, snd (file_t s) = a ++ b -> begun a - ended a <= d) ->` calls and lines `<= 555 * (length s + 1)^5 * (215 * (length s + 1)^3)^d` | for each parser a bound `c * (n+1)^k` times the work of one recursive call; induction on the recursion for all `d` |
| C61 | `Forall2 piece parts stss -> parts <> [] -> file (concat (map (fun p => fst p ++ snd p) parts)) = Ok [] (concat stss)`; any order (`C61_any_order`), edits (`C61_edit`), after all kinds of declarations (`C61_head`) | two runs side by side, on a definition at the end of the file and before other text; every parser takes the same steps until it stands at the end of the definition, and there a case branch cannot begin |
| C62 | `recomment s s' -> file s = Ok [] l -> exists l', file s' = Ok [] l' /\ Forall2 same_code l l'`; rejected texts too (`C62_rejected`); without the comments the lists are equal (`C62_program`) | two runs side by side on the two texts, parser by parser; each of the four conditions is shown to be needed |
| C63 | `relayout s s' -> file s = Ok [] l -> exists l', file s' = Ok [] l' /\ Forall2 same_code l l'`; rejected texts too (`C63_rejected`); equal without comments (`C63_program`) | two runs side by side; layout runs put what follows at the same column (`rl_runs`); a signature before a blank line is an error in both texts (`stuck_Err`); each condition is shown to be needed |
| C64 | `Forall section parts -> (file (text parts) = Ok [] sts <-> exists stss, Forall2 (fun p l => file (fst p) = Ok [] l) parts stss /\ sts = concat stss)`; a rejected section (`C64_rejected`), a corrected one (`C64_corrected`), definitions without types (`C64_unrepaired`) | the two runs of C61 in the other direction: with other text after it a whole text is read as alone (`reads_back`); a whole text holds no declarations (`whole_statement`); each condition is shown to be needed |
| C65 | `relit K after_other s s' -> file s = Ok [] l -> exists l', file s' = Ok [] l' /\ Forall2 (same_stmt K) l l'` for all relations `K` between literals (and operators, C67; no lists or phrases in parentheses, these are C70 and C72), with `on_digits K` reflexive; `file s = Err <-> file s' = Err` (`C65_rejected`); the trees without their literals are equal (`C65_shape`) | two runs of the parsers (TwoRuns.v) on texts that are related by `relit`: every parser stops at the same place of both; a boolean checker for `relit`, proved sound, gives the instances; the conditions on `infix` and on names are shown to be needed |
| C66 | `statement s = Ok r (Function_ (mkFunc (Some sg) d)) -> exists g b t, s = g ++ [newline] ++ b ++ t /\ statement t = Ok r (Function_ (mkFunc None d)) /\ forall t' r' d', statement t' = Ok r' (Function_ (mkFunc None d')) -> statement (g ++ [newline] ++ t') = Ok r' (Function_ (mkFunc (Some sg) d'))`, with `b` empty or a multiple of 2^32 spaces; the same for entries of a let (`C66_local`) and for all pieces of a file (`C66_file`) | the exact descriptions of annotations, definitions and entries (Decls.v, Keywords.v), the cut of a type at its end (Cut.v) and the pieces of C61 |
| C67 | `relit (operators R) after_other s s' -> file s = Ok [] l -> exists l', file s' = Ok [] l' /\ Forall2 (same_stmt (operators R)) l l'` for all relations `R` between operators; `file s = Err <-> file s' = Err` (`C67_rejected`); the trees with `+` for each operator are equal (`C67_shape`) | the two runs of C65, whose relation `relit` also lets operators be replaced: where a symbol (`=`, `:`, `->`, ...) is the beginning of a replaced operator, neither run gets past what follows the symbol; instances by the checker of C65; examples show that each condition on the operators is needed |
| C68 | `bracketed t -> same_before v v' (term i (t ++ v)) (term i (t ++ v'))` for all `v`, `v'` that do not begin with a dot if `t` is an operator in parentheses; likewise for `type_` | two runs on `w ++ v` and `w ++ v'` where `w` closes the brackets that are open: every token parser stops inside `w`, every closing bracket leaves a `w` that closes one bracket less; `bracketed` and `closes` (Inside.v) do not refer to the parser |
| C69 | `has_newline s = false -> expression i s = expression j s /\ ...`; with C68: `bracketed t -> has_newline t = false -> same_before v v' (term i (t ++ v)) (term j (t ++ v'))` | two runs of the same parser with two columns on one text; blank space without line feeds is accepted for all columns |
| C70 | `(forall x y, on_list K x y -> list_phrase x /\ list_phrase y) -> relit K after_other s s' -> file s = Ok [] l -> exists l', file s' = Ok [] l' /\ Forall2 (same_stmt K) l l'`; `file s = Err <-> file s' = Err` (`C70_rejected`); the trees with `[]` for each list are equal (`C70_shape`) | the two runs of C65, whose relation `relit` also lets list literals be replaced; at a replaced list both runs read exactly the literal (C68 and C69, for the parsers with any bound on the recursion) |
| C71 | `is_close k = true -> complete u -> before (k :: v) (expression i u) (expression i (u ++ k :: v))` for all `v`; `complete u -> expression i u = Ok [] e -> term i (L "(" ++ u ++ L ")" ++ v) = Ok v e` (`C71_parentheses`), likewise for lists and definitions; conversely `C71_inside` | two runs on `w ++ z` and `w ++ z'` where `z`, `z'` are empty or begin with a closing bracket and `w` closes all brackets but this one (Alone.v): every token and all layout ends inside `w` or at its end in both runs; opening brackets lead one level deeper, closing brackets are tried only at deeper levels |
| C72 | as C70, with `on_round K x y -> both_phrases x y` (`C72_phrases`, `C72_rejected`): both are complete expressions (`value_phrase`), or both are tuples that are no expressions in parentheses (`tuple_phrase`), and neither is a type or a list of exports; if only tuples change, the trees with all tuples emptied are equal (`C72_tuples`); on one line one column is enough (`C72_line`) | the simulation of C65/C70 with one more kind of phrase: at a replaced phrase all parsers that begin with `(` either fail in both runs or read the whole phrase in both runs; that they do so with any text behind the phrase follows from their result on the phrase alone (Phrases.v, by the two runs of C68, now for lists of exports too) |
| C73 | `relit same_trees after_other s s' -> file s' = file s`; `value_phrase (u ++ L ")", e) -> value_phrase (L "(" ++ u ++ L "))", e)` (`C73_doubled`) | C72 for a relation `K` that keeps the trees: then trees related by `K` are equal; for doubled parentheses: the types and lists of exports that begin with two parentheses |
| C74 | with `term i s = Ok s1 f` and `arguments i s1 xs u`: `u = t ++ o ++ b ++ s2` with blank space `t`, `b` gives a `BinOp`; `u = t ++ c :: d ++ s2` with a sign `c` and digits `d` gives the argument `Integer (c :: d)`; else (`C74_touching`, `C74_half`) `expression i s = Ok u (fold_left Application xs f)` and `file (n ++ L " = " ++ s) = Err` (`C74_rejected`) | by the exact meaning of a chain (`expression_iff`), the uniqueness of layout, the first characters of a term (`no_term`) and the reading of a file statement by statement (`file_reads`) |
| C75 | `relit K after_other s s'` where `on_curly K` relates records (`both_records`) gives `file s' = Ok [] l'` with `Forall2 (same_stmt K) l l'` if `file s = Ok [] l`, and `file s = Err <-> file s' = Err`; with equal trees `file s' = file s` (`C75_same`) | as C72: two runs on the related texts (`k_file`), where a phrase in braces is read as it is read alone (`reads_values_alone`, `reads_names_alone`, by C68's two runs inside brackets); the short form is singled out since the target of a definition in a `let` reads it only |
| C76 | for every `l` with `Permutation statement_kinds l`, `(forall s, one_of (map read_statement l) s = statement s) <-> before SDefinition SInfix l`, `clash (read_statement k) (read_statement k')` exactly for this pair, and two kinds that read one text are the same or this pair; likewise for terms (three pairs), types (one pair), expressions and left hand sides (none) | a general fact about first-match alternatives (`order_iff`, Order.v); that two kinds have no text in common comes from their first characters (`heads`), from the exact grammar of C53, C54, C63 for kinds that begin alike, and from the reserved words for the keywords |
| C77 | `file s = Ok [] sts -> written (concat (map statement_symbols sts)) s`, likewise for expressions and types; `C77_text`, `C77_same_tree` for texts without comments and literals, `C77_words` for the words | `statement_symbols` is a function of the tree only (Leaves.v); by induction over the grammar of C04 |
| C78 | `check_process w raw` equals `check_main w args` if `raw = map encode args`, and is `([], Panicked m)` for every world otherwise; `dump_process` for every function `clap` | `env_args` decodes every argument or fails (Args.v); with the exactness of UTF-8 decoding (C34) |
| C79 | `file s = Ok [] sts -> without_literals s -> In w (words s) ->` `w` is `_`, a numeral or begins with a letter; `C79_numerals`, `C79_underscores` spell out what is rejected | `words` is a function of the text (Leaves.v); every symbol of C77 is spelled in one of these ways and no two words touch |
| C80 | `C80_counts`: `occurrences k s = total (nodes_stmt ...) sts`; `C80_nesting`: `nested` of the keywords among `words s` | from C77: the keywords of the text are the keywords of the tree's symbols; by induction over trees |
| C81 | `C81_table`: `beside s c d -> touch (cls_of c) (cls_of d) = true`, with readable cases `C81_word`, `C81_close`, `C81_operator`, `C81_open`, `C81_block_comments`; `C81_exact`: every pair of `touch` occurs | by induction over the grammar: first and last class of every phrase, all seams compatible; exactness by witnesses |
| C82 | `following s sts w b s' st st'` (two neighbours `st` with text `w`, space `b`, `st'` at `s'`), found for all neighbours by `C82_neighbours`; `C82_next`: `In newline b /\ exists j, (j = 0 \/ indents w j) /\ column of s' <= j`; `C82_one_line` | induction on the length of the expression: where it ends, no argument follows at the indentation of one of its lines |
| C83 | pieces as in C61 and `head u`: `C83_accepted` (`file (text ++ u) = Ok [] l <-> exists l', file u = Ok [] l' /\ l = concat stss ++ l'`), `C83_error` (the error is that of `u` alone), `C83_stays` (in either case the pieces are read first and reading goes on at `u`) | the simulation of C61 at the level of single statements: `u` needs to be no file, it only must not begin like something the text before could take |
| C84 | `C84_statement` (`statement s = Ok r st -> s = w ++ r -> no_comment_or_quote w -> w = a ++ cr :: b -> closes a < opens a \/ after_operator a`), `C84_windows` and `C84_lines` (accepted files whose line feeds all follow a carriage return, divided into statement texts and blanks) | an invariant of the grammar (`scan`: reading with the number of open parentheses and braces), by induction over all phrases, and soundness of the parser |
| C85 | `C85_statement` (`statement s = Ok r st -> s = w ++ r -> no_comment_or_quote w -> w = a ++ tab :: b -> closes a < opens a \/ after_operator a \/ among_parameters a`), `C85_file` (all statements of a file), `C85_declaration` (statements without expressions: no tab, no carriage return) | as C84, with a mutual invariant for the parameters of a lambda; the arrows of a parameter are inside its brackets (Params.v); induction over types and declarations (Clean.v) |
| C86 | `C86_statement` (`statement s = Ok r st -> s = w ++ r -> ending st w`), `C86_file` (a file without its final blanks ends as its last statement does), `C86_keyword` (a file ending in a reserved word: the last statement is no definition), `C86_sign` (a file ending in a sign: the last statement is a comment, or an infix declaration and the sign an operator's) | induction over the grammar of expressions and types (Finish.v); the final blanks and the last word of a text are unique |
| C87 | `C87_first_word` (`statement (k ++ s) = Ok r st -> k = opening st`, for every whole word `k`), `C87_first_sign` (other first characters), `C87_reserved` (reserved words that begin nothing), `C87_definition` (a name begins a definition of that name), `C87_file` (each statement of a file) | case analysis on the grammar of statements; the first word of a text is unique |
| C88 | `C88_expression_begins`, `C88_expression_ends`, `C88_type_begins`, `C88_type_ends`, `C88_statement_begins`, `C88_definition_ends` (each an equivalence: some text beginning or ending with `c` is read iff `c` is in the list) | the grammar of each kind (C04) and the invariant of C86 for one direction, a witness for each character for the other |

## Wrong programs

`seeded/LOG.jsonl` records the wrong programs tried: one definition of the model is
edited in a scratch copy the way a realistic bug would change the program, everything
is rebuilt (each broken lemma is left unproved so that later files are still checked),
and the property theorems whose proof no longer goes through, directly or through a
lemma they depend on, are listed under `failed`.  Such a theorem need not be false of
the edited program: the proof may have broken in a lemma that is true of it in another
way.  What is decisive is the other direction: a theorem that is not listed still holds
of the edited program.  A theorem that survives although its claim is false of the edited
program is tightened.

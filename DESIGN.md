# Design

Subject: the Rust library PistonDevelopers/meta (`piston_meta`) in `/repo`, read as text.
Everything is proved in Coq 8.16.1 about a hand-written functional model of that code.
The property list is in `properties.jsonl`, the status of each property in `MANIFEST.json`.

## 1. Trusted base

1. Coq's kernel (and the VM conversion used by `vm_compute`).
2. What `Print Assumptions` lists for each theorem. The aim is "Closed under the global
   context" everywhere: only the standard library is used, and no axiom of it.
   Each `Properties_*.v` file prints the assumptions of each theorem it contains.
3. The model is the code. Each definition cites the file and lines it transcribes and
   states its simplifications.
4. The contract of two external crates that are not in the sandbox, `range` and
   `read_token` 1.0 (file `Ext.v`):
   * `Range`: `next_offset = offset + length`, `empty`, `wrap`, `ends_intersect`.
   * `ReadToken`: cursor over the remaining characters plus an offset in characters;
     `start`, `peek`, `consume`, `subtract`, `tag`, `whitespace`, `until_any`,
     `until_any_or_whitespace`, `raw_string` are given their documented meaning.
   * `string`, `parse_string`, `number`, `parse_number`, the position of the
     "expected new line" range of `lines`, the text of third-party error messages and
     the text printed for an `f64` are *parameters* (record `ext`), constrained only by
     the laws in `ext_ok`. Theorems hold for every such record. A concrete record
     `std_ext`, used to run examples, is proved to meet the laws.
   * The theorems about texts of the meta language assume a little more of the readers of
     literals, stated as hypotheses: the end of a literal does not depend on what follows
     (`whole_readers`), every string has a literal that is read back (`string_literals_ok`),
     and no number starts with a slash (`no_slash_number`). `std_ext` meets them
     (`std_whole_readers`, `std_string_literals`, `std_no_slash`).
   * `ReadToken::lines` is reconstructed from its documentation, its use and the unit
     tests of `src/meta_rules/lines.rs`, all of which are replayed in `Tests.v`.
   * `char::is_whitespace` is the Unicode White_Space list; `char::encode_utf8` and
     `String::from_utf8` are written from their documentation (`IoModel`), and proved to be
     inverse to each other (C59).
   * `io::Write`: one `write!` is one operation on the destination, which takes all bytes or
     reports an error; nothing is assumed of the destination, `C59_counted` aside.
5. Build profile: arithmetic overflow is modelled as a panic (debug profile), for the
   `u32` indentation, the `usize` debug ids, and the `u32`/`usize` counters of
   `json::write` and `Convert::ignore`. A second model of what can overflow (`ReleaseModel`,
   `ReleaseConvert`) lets it wrap; C83 relates the two. Positions and lengths are unbounded
   naturals.

Modelled: `src/tokenizer.rs`, `src/meta_rules/*.rs`, `src/optimize.rs`, `src/parse_error.rs`
(messages), `src/parse_error_handler.rs`, `src/json.rs`, `src/bootstrap/convert.rs`,
`src/bootstrap/rules.rs` (the rule table, transcribed mechanically), `src/lib.rs`
(`MetaData`, `Syntax`, `syntax`, `syntax_errstr`, `load_syntax_data`), `src/search/src/lib.rs`,
`assets/self-syntax.txt` (verbatim).

Not modelled: reading files (a file of `load_syntax_data` is a text or unreadable; what
`stderr_unwrap` writes there is a text), how a stream cuts one `write!` into system calls, thread safety
and `lazy_static`, `Clone` and `Debug` instances, `PartialEq` other than of rules, syntaxes
and meta data (equality of ranges and of `f64` is that of their values), memory and the size of stack frames
(endless recursion appears as "no fuel suffices"; C57 counts active calls), the wording of `search` errors, examples and tests.

## 2. Model

* characters are `N`, text is `list N`, positions are `nat`, debug ids are `N`,
  `f64` is `SpecFloat.spec_float`.
* `outcome A := Done a | Panic | OutOfFuel`. Recursive parsing takes fuel; every loop that
  is not over a finite list takes fuel too. Public statements hide fuel: "parse returns x"
  is `exists fuel, parse_with_indent fuel .. = Done x`; "parse does not return" is
  `forall fuel, .. = OutOfFuel`. Fuel monotonicity makes the result unique.
* Mutation: the token vector and the indent settings are threaded through, also along
  failures, exactly as `&mut` does. `TokenizerState` is a `nat`.

Files: `Base`, `Ext`, `Types`, `ParseModel`, `OptimizeModel`, `ConvertModel`, `JsonModel`,
`HandlerModel`, `SearchModel`, `LibModel`, `LoadModel`, `EqModel`, `BootstrapRules`, `Assets`,
`OldAssets`, `Assets10` are the model; `DepthModel` and `CostModel` are parsing once more with a limited stack and with a
counter of calls, proved to return the same; `OptCostModel` is optimisation once more with the
branch of src/optimize.rs:135-151, which `OptimizeModel` leaves out, and a counter of calls, proved
to return the same; `IoModel` is `JsonModel` and `HandlerModel` once
more with a destination that may fail;
`Tests.v` replays repository unit tests; `Properties_*.v` hold only the property theorems,
their non-vacuity examples and `Print Assumptions`. The independent specifications are

| file | what it says |
|---|---|
| `PegSpec` | meaning of rules on texts (`reads`), failures, acceptance |
| `DataSpec` | nested token lists and their children |
| `RuleSpec`, `IdSpec`, `OptSpec` | rule tables, rules alike up to ids, resolved references, first bytes |
| `TotalSpec` | grammars that make progress |
| `SearchSpec`, `CursorSpec` | first match; token cursor of the converter |
| `JsonSpec` | JSON documents and string literals |
| `ReportSpec` | lines, columns, carets |
| `ConvertSpec`, `WriteSpec` | nested meta data; meta data that writes rules |
| `SyntaxSpec` | reading a syntax from a text |
| `TextSpec`, `SurfaceSpec` | the meta language as text, after the README |
| `MeaningSpec` | what a text of the meta language means |
| `OriginSpec`, `RenameSpec`, `ShiftSpec`, `LawSpec`, `EqSpec`, `LoadSpec` | where rules come from; renaming; moved texts; laws of rules; equality; loading files |
| `CostSpec`, `CallSpec` | number of calls, syntaxes without recursion; the tree of calls |
| `IoSpec` | writing to a destination that may fail; strings |
| `TabSpec` | width of blanks, lines at a column |
| `StuckSpec` | what a rule starts with; endless rules, stuck selects |
| `HangSpec` | which calls a call needs the result of; circular calls |
| `OptCostSpec` | how often optimisation visits rules; size and nesting of selects |
| `TruthSpec` | rules that are used; what an error says about the text |
| `UndefSpec` | syntaxes without references to undefined rules |
| `TreeSpec` | data as trees, what they mean; data that says the same |
| `ShapeSpec` | which data, as a grammar of trees without the text, a rule may give; a tree somewhere in trees |
| `SizeSpec` | the characters that items were made from |
| `BootSpec` | generations of rules that read their own description |
| `IgnoreSpec` | the ranges of the items that conversion does not use |
| `GuardSpec` | the rules with a check for the end of the text in front of the alternatives that a table does not decide |
| `ValidSpec` | data that can be written as valid JSON; names that a syntax gives |
| `OutlineSpec` | trees, how they are written as outlines, the nodes they stand for |
| `FindSpec` | the searches a program can get at, the errors they return |
| `GrammarSpec` | syntaxes as context-free grammars (`generates`), how texts may begin and go on (`may_begin`, `goes_on`), the next character decides (`clear`), alternatives in another order (`reordered`) |
| `LinearSpec` | syntaxes without negated rules |
| `ExtendSpec` | extensions of syntaxes: more alternatives, omissible parts, loosened options, moved definitions |
| `ViableSpec` | where reading stopped, productive syntaxes |
| `ExpectSpec` | what an error says of the text and what it demands |
| `ReleaseSpec` | `release_parses`, `release_converts`, `release_syntax`, `release_loads`: the calls in an optimised build without fuel; `but_numbers`, `but_ids`: equal but for numbers, debug ids |
| `BuildSpec` | syntaxes built by calls in any order |
| `WhereSpec` | the order of the rules in a text; which errors a written rule has |
| `LeftSpec` | the beginning of sound data: closing its open nodes makes it sound |
| `BreakSpec` | texts that differ in their line breaks, rules that do not tell them apart, corresponding tokens (C87) |
| `RecodeSpec` | rules, errors and tokens with other characters; which replacements of characters are meant (C88) |
| `KeySpec` | what a key-value file looks like and stands for; the rules and the file of examples/key_value.rs (C89) |
| `LayoutSpec` | lines of JSON output: depth, commas, text of an item, contents (C90) |
| `HelloSpec` | greetings, and the rules of examples/hello_world.rs and examples/neg_match.rs (C91) |
| `MessageSpec` | decimal numbers, the rule to blame for an error, messages of one line (C92) |
| `DeadSpec` | alternatives that an earlier one covers, rules with such alternatives dropped (C93) |
| `OrderSpec` | characters that what a rule reads begins with, rules with neighbouring alternatives swapped (C94) |
| `AheadSpec` | how far a syntax looks ahead, texts that are the same up to there (C95) |
| `PlaceSpec` | texts generated at a place with data and ranges, texts with data one behind the other (C76, C96) |
| `EditSpec` | documents in which the text of a node is replaced (C97) |
| `ReformatSpec` | white space that belongs to no data, and data after it was changed (C98) |
| `PartSpec` | the syntax whose documents are the texts of one rule (C99) |
| `ItemsSpec` | what may stand in place of an item, an optional part or an alternative (C100) |
| `ExchangeSpec` | documents in which two nodes are exchanged (C101) |
| `SortSpec` | documents in which any number of nodes is put in another order (C102) |
| `ChangeSpec` | the rules that read values, texts of numbers and strings in quotes (C103) |

All other files hold lemmas.

Central specification (`PegSpec.v`): an inductive relation
`reads refs r ind p s verdict ind' trace` that gives the declarative meaning of every rule
at position `p` in front of the text `s`: accepted up to `p'` leaving `s'` with tokens
`out`, or rejected. It knows nothing about token vectors, states, ranges bookkeeping or
fuel. `trace` is the list of failures raised on the way, outside negative lookahead.

## 3. Properties and how they are proved

* C01 refinement of the model by `reads`: soundness by induction on fuel, completeness by
  induction on derivations. The vector invariant: committed prefix = old prefix ++ out.
* C02 same induction; the optional error returned equals "last of the deepest" of `trace`.
* C03 corollary of the vector invariant; refuted: failure restores the vector.
* C04, C05, C06 induction on derivations of `reads`; own definitions of nesting, order.
* C07, C08 from C01/C02 plus position bounds of every element of `trace`.
* C09 checker on grammars with a rank per node and a nullability table; well-founded
  induction on (remaining text, rank, rule size) gives a derivation for every text.
  Refuted in general with `.r?(.w?)`.
* C10 no `Panic` for valid syntaxes (valid indices and tables); the indentation counter is bounded by 255 per
  character. Refuted with a bad index.
* C11, C12, C13, C14 stated against the model's `parse_rule` on arbitrary sub rules (`runs`: the verdict
  and the indentation of a run that some fuel completes, proved to be unique in `C11_runs_unique`).
* C11 the verdict of `?` and `!` is a function of the verdict of the sub rule; `!!` follows.
* C12 `times` counts consecutive readings; both directions by induction on the loop's fuel and on `times`.
* C13 `times` over `then_item` (separator, then item), closed by `list_end`, which says where the list may
  stop for each setting of the trailing flag; all four flag combinations are covered by one equivalence.
* C14 `block` lists the items with the gaps in front of them; `C14_pieces` restates it about the text alone
  (line break between items, white space elsewhere, where and why it stops).
* C15 spec by counting leading spaces; proof over the lines loop. Nested blocks (`DeeperProofs`): the
  sub rule runs one deeper than the column of its line.
* C16, C17 non-interference by induction on fuel; refutation witness run by `vm_compute`.
* C18 erasing ids commutes with parsing, induction on fuel.
* C19 induction on rules. C20, C21 induction on rules/fuel and on the argument list.
* C22 simulation between derivations over the original and the optimised table; errors are
  related by depth. Side condition is a decidable check on the syntax. Refuted without it.
* C23 fuel existence from the same rank idea as C09; refuted by a left recursive witness.
* C24 induction on rules with a lemma that `unique_byte` is unchanged by optimisation.
* C25 well nested data: measure is remaining data length. Refutations run the model.
* C26 explicit encoder of rules to meta data; induction on rules.
* C27, C33, C39 refuted with witnesses through the full text pipeline.
* C28, C29 invariants of the conversion functions.
* C30 C09 + C10 applied to the transcribed built-in rules (checker evaluated), C04, C25.
* C31 the conversion of the self syntax is computed and equals the built-in rules after
  erasing debug ids; C18 turns this into a statement about every text.
* C32 C22 applied to the built-in rules, side condition evaluated.
* C34-C37 structural inductions; an independent JSON reader for C35.
* C38 arithmetic on line ranges, spec by counting newlines.
* C40-C42 list inductions.
* C43 composition, with no-panic of the report writer. `C43_default` (`WrapProofs`) is about `parse_errstr` itself,
  which chooses the indent settings; a wrong choice there had gone unnoticed (mutant M690).
* C44 `TextSpec` describes texts in the meta language by a grammar of its own. For each
  construct a lemma `good` says that its text is read by the built-in node for it, in front
  of whatever may follow, into the meta data that `WriteSpec` relates to the rule; C26 turns
  the meta data into the rule. A printer gives a text for every expressible rule.
* C45 two texts of the same strings and nodes are read alike by C44 and by the determinacy
  of the conversion. For all other accepted texts C55 gives the entries; the comment adds no
  meta data, and the conversion ignores ranges (`ConvertBare`), so both texts are read alike.
  With `/*/` in the text a comment line does matter (finding 16).
* C55 `SurfaceSpec` takes the grammar of `TextSpec` with any literal of the readers and any
  name for a string. From left to right: the derivation of the built-in rules is taken apart
  (`TextInv*`): the length of what is read bounds an induction over rules, comments and
  lines; ordered choice matters for `!"a"` (a tag, not a negation) and for comments. From
  right to left: the lemmas of C44, with all names defined. Entries out of order stop the
  block of nodes at a string, so the text is not read to its end.
* C56 `MeaningSpec` gives the grammar of C55 a meaning, with `option` for what an undefined
  name leaves. Proof: define all undefined names as one marker text that occurs nowhere
  else; then C44 gives the meta data. Reading these data with the original strings gives the
  rules with everything marked left out (`LostProofs.read_rule_lost`, an induction over the
  conversion functions), which is what the text means (`MeaningProofs.mark_rule`).
  Properties of a node are written at most once (`OnceProofs`); otherwise an earlier value
  would show through a lost one. Unambiguity: both meanings give the same meta data.
* C46 `OriginSpec.comes_from` lists, per kind of rule, which tokens must be in the data;
  induction over the conversion functions. C33 is strengthened from a witness to all texts
  by the same induction (`C33_always_trailing`).
* C47-C49 one simulation (`reads_alike`) between derivations over two rule tables, given a
  relation of properties and a relation of rule numbers; it is used in both directions by
  flipping the relations. Equal traces give equal errors by C02. The relation is kept by
  optimisation since first bytes are the same on both sides.
* C50 the derived equalities are transcribed as boolean functions (`EqModel`) and related to
  identity of the trees by induction.
* C51, C52 follow from C39 (the report is always produced) and unfolding of the composition;
  the files are optional texts, the process exit is an explicit outcome.
* C53 induction over derivations with a shifted position (`reads_moved`); the trace of errors
  moves along, so the newest deepest error does. The start rule is exchanged with
  `reads_alike` (C48).
* C54 both sides of each law have the same derivations (with equal traces) over one table;
  a table rewritten by laws is simulated by the old one, by induction over the derivations of
  the new one. The converse needs the laws over the new table.
* C57 the measure of C09 (remaining text, rank, height of the rule) bounds the depth, with the
  rounds of loops counted apart. Lower bound: a stack of `5 * k` calls is exhausted by `k`
  nested comments, by induction on `k`.
* C58 the count is the size of the tree of calls, in which a rule has the rules it tries below it
  (`CallSpec`, by means of `reads`): induction on fuel, and the tree is unique. Upper bounds by the same measure: every call costs one plus its sub calls; loops sum over
  the lengths of the text that is left (`CostBound`). Without recursion induction on the rank
  gives a polynomial. Lower bound: each of the comments opened behind a comment is tried as a
  nested comment, fails at the end of the text, and is tried again as plain text; so the count
  doubles (`CommentProofs.unclosed_both`).
* C59 writing programs are composed of `print`s; that a program `says` a text is closed under
  sequence and loops, and follows the recursion of the models that return the text. UTF-8 by
  linear arithmetic with quotients for each of the four lengths. `C59_print`, `C59_print_panic` and `C59_error`
  (`WrapProofs`) state it for `json::print` and `ParseErrorHandler::error` themselves; before, only `unwrap` was
  covered, and a `print` that passes errors over had been refused by an example alone (mutant M695).
* C60 two generations are computed, the rest by induction on the number of rounds. The optimised
  old rules accept what the plain ones do by C22; its proviso is decided by inspection of what a
  rule does at the end of a text (`AtEnd`, sound for all external readers).
* C61 the columns counted by the loop over blanks (`indentation` of `PegSpec`) are related to the
  width of blanks: they are the shortest blanks that reach the column. Lines and blocks follow by
  cases; that lines of tabs only are read again by arithmetic. The theorems are stated for running
  a `Lines` rule (`BlockPublic`), as are C14 and C15.
* C62 the chain of first items is deterministic; it ends, or among more references than there are
  rules one comes twice (pigeonhole), which gives a cycle. Either the byte is found from some fuel
  on, or every fuel is used up; this is lifted through the loop over alternatives, with an invariant
  for the table, and through the rules.
* C63 a call that returns has a finite tree of calls (C57), and each call it needs has a smaller
  one; so no returning call is circular. Conversely there are finitely many calls for a text: the
  rules of the syntax, the places, and the indents up to the bound of u32; following what a call
  needs for longer than that meets a call again (pigeonhole), and otherwise the call returns, by
  cases on the rule.
* C64 the counting model returns the same by induction on rules; its counts follow the relation
  `visits`, with the table of first bytes related to `begins` of C62. The bounds are inductions on
  `visits`. The texts of the finding are read by C44, for all depths.
* C65 every failure in a trace of `reads` is explained, by induction, with the text at a position
  being what is left; the reported error is one of the trace (C02).
* C66 a symmetric relation between rules that may differ in rules that read nothing keeps verdicts,
  by induction on `reads`; pruning is an instance. Names of read syntaxes: converted rules have no
  numbers (C29), resolution gives them the first (C19), optimisation adds no references.
* C67 the two tables of rules differ in the rule for lines only. A success carries over from one
  to the other by induction on its length: rules that cannot reach lines agree (the simulation of
  C48), and an alternative that comes before the successful one fails in both, because of the
  first characters. The rules of 1.0 are computed from the text in assets.
* C68 `TreeSpec` gives every tree a meaning by recursion on trees, with "last answer" and "all
  answers" in place of loops with accumulators. Each loop and reader of the model is shown to give
  this meaning if it returns (induction on fuel); that it returns is C25. The corollaries are then
  about the meaning only.
* C69 `ShapeSpec` reads a rule as a grammar of trees. Shown by induction on `reads`, so it holds for all
  texts; optimised syntaxes by a relation "every alternative comes from the alternatives of the other"
  (no side conditions, unlike C22). Data is one list of trees (`flat` is injective on good trees), so
  nodes at any depth can be traced to a reference in the syntax.
* C70 weights of rules, following references by the ranks of C09: a rule that reads nothing gives at most
  its weight, one that reads n characters at most a constant times n less a reserve that pays for the
  items next to it that read nothing. A failed parse leaves what its last attempts stored (C86): `SizePeak`
  bounds the vector after every call by the larger of what it was and what was committed plus the room for
  the rule, by induction on the fuel, with the reserve paying for the next call.
* C71 a second pass over the readers of C68, which follows the list of ignored ranges; `passed_data` is a
  function on trees with the index of each. From it: ranges are whole items; nothing passed over means
  that every last reference in a text is defined (at any depth, by induction on trees).
* C72 the check is put inside each alternative, so the changed select is a select again and the simulation
  of C22 (`orel`, `stands`, `replace_all`) goes through in both directions without the proviso: at the end of
  a text the table and the checks both fail; elsewhere the checks pass and read nothing.
* C73 a valid document has no control characters but white space, so the strings in it have none either; the
  value it denotes is that of C35, so its numbers are those of the data. For parsed data C06 says where the
  strings come from.
* C74 induction on the tree, with what may follow it: nothing but white space, or a line further left than
  its items below. An inner block reads the line break behind it, so that the block outside of it finds the
  next line without a gap. Backwards by induction on the length of the text, over the lines of C14.
* C75 by C40 and C41 each operation keeps the place in the data; ranges from C05. The end of a node from
  the nesting of C04, with the first end of that name found by C40.
* C76 (`GrammarProofs`, `GrammarCheck`, `GrammarPublic`): soundness by mutual induction on `reads` (`reads_generated`); a generated text begins as `may_begin` says (`generates_begin`). In a clear syntax a rule that does not begin like the text has a verdict by termination (C09), which by soundness must be a failure (`fails`); with that, generated texts are read by mutual induction on `generates` (`generated_read`). `GrammarCheck` computes tables of first and following characters as sets of intervals and checks that they are closed; only the check is proved sound (`checked_clear`), the computation of the tables need not be trusted. With ranges: `PlaceProofs`, `PlacePublic` (see C96).
* C77 (`LinearProofs`): over the tree of calls of C58, by induction on readings. Every reading is *idle* (nothing read, constantly many calls, the constant following only rules that are tried at the same place, which are ranked), *clean* (the characters read pay for all calls), or *lost*: it began like the rule, made at most linearly many calls, and either failed or stands in front of a character that cannot follow the rule. Behind a lost reading every rule that is still tried is idle, since it would have to begin with that character; so at most one linear share is ever wasted. Weights as in C70, with one for every call.
* C78 (`FasterProofs`): by induction on the call tree of C58 for the syntax as given. What each rule reads with the optimised syntax is taken from C22; the calls of sequences, repetitions, separated lists and lines then correspond one by one. A fast select calls at most the alternative that the table names and the select of the rest; the original has called every alternative in front of the rest, which are at least two, so it pays for the one extra call.
* C79 (`ExtendProofs`, `ExtendPlace`): what a syntax accepts it generates as a context-free grammar (C76, for any syntax without lines); generation is monotone under extension, by induction on generation with an inner induction over what is put around a rule; and a clear syntax accepts what it generates (C76). With ranges (`ExtendPlace`): the same with `places` (C96).
* C80 (`ViableProofs`): by induction on readings, for every error of the trace, not only the reported one: the text from the place of the rule up to the error begins a generated text of the rule. What was read is generated (C76), what is still missing is filled in since every rule generates some text. For clear syntaxes what is generated is accepted (C76).
* C81 (`ExpectProofs`): the induction of C80 with the demanded text put between what was read and the completion; the demanded text comes from the rule that reports the error (productive), for everything around it the cases are those of C80. The end of the text is demanded only by `parse` itself.
* C82 (`PipeProofs`, `PipePublic`): the meaning of the text gives the rules that are read up to debug ids (C56); resolution, the first-byte analysis and optimisation commute with a change of debug ids (`like_resolved`, `optimize_rule_like`), parsing does so (C18), and optimisation keeps acceptance and depth (C22). The grammar version adds C76, C09 and C23. The languages of the two example programs are obtained by inverting `generates` and `reads`.
* C83 (`ReleaseConvert`, `ReleaseModel`: the code without overflow checks; `ReleaseProofs`, `ReleaseFuel`, `ReleaseIds`, `ReleaseSafe`, `ReleasePublic`): with the same fuel the checked run panics or both agree (`le_d`, by induction on fuel through all readers); results do not depend on fuel; conversion of data with other numbers is simulated up to debug ids (`sim`), so totality follows from that with all numbers zero (C25); panics of parsing without overflow are excluded as in C10.
* C84 (`BuildProofs`): a rule of the built syntax is one that resolution treats like the rule that was pushed, or the optimised form of that rule resolved, with respect to the rules pushed up to then (`known`). The first-byte analysis gives the same for syntaxes some of whose rules are optimised (`byte_parts`), and does not change when rules are added behind (`byte_more`).
* C85 (`WhereProofs`): the rules that are read are known exactly (`document_syntax`: numbered, then resolved); numbering gives each rule its place (`number_order`), what an optimised rule says is said by a rule before optimisation with the same id (`opt_says`), and errors come from used rules (C65).
* C86 (`LeftProofs`, `LeftProofs2`): an invariant on the vector, junk included, that each call keeps (`unfinished`: placed items with some nodes open; the shape of a call's result comes from soundness against `reads`); independence of the tokens in front is an equation for every parser (`rule_carries`).
* C87 (`BreakProofs`, `BreakProofs2`, `BreakProofs3`, `BreakProofs4`): `same_breaks` relates texts with any mixture of `\n` and `\r\n`. `reads_breaks` is a simulation by mutual induction on `reads`: from corresponding places the rules give corresponding verdicts (`BreakProofs2`). Places are not in bijection: what is read up to `\n` includes the carriage return. Hence errors need not correspond (`C87_message_refuted`). `optimised_safe` carries the condition to fast selects: no table has an entry for either part of a line break. `C87_meta` composes with `TextSame.same_data`.
* C88 (`RecodeProofs`, `RecodeProofs2`): a simulation by mutual induction on `reads`: verdict, number of characters, settings and the whole list of failures are the same up to the replacement, so that the reported error is as well. Optimised rules by C22.
* C89 (`KeyProofs`, `KeyProofs2`, `KeyProofs3`, `KeyPublic`): both directions by inversion of `reads` for the rules of one entry, then by induction on the length of the text for the lines; leading white space may be added to and removed from a file (`entries_add`, `entries_strip`). Optimised rules by C22.
* C90 (`LayoutProofs`, `LayoutPublic`): `write_loop` writes the lines of a list function (`loop_lines`), whose line `k` is described by the items before and behind it (`loop_shows`); the bounds by summing over the lines. The refutation parses nested parentheses of any depth with `reads` and sums the spaces.
* C91 (`HelloProofs`): both directions by inversion of `reads` for the rules of the examples; the optimised rules of hello_world by C22.
* C92 (`MessageProofs`): numbers end where the comma starts, lines where the line break is; the place is read off the last lines of the report with the description of reports of it.
* C93 (`DeadProofs`): by induction on the covering, a failed earlier alternative excludes the later one; then by induction on the derivation of the parse, with all earlier alternatives known to fail at the same place and the indentation unchanged (C16). The converse by termination (C09) and uniqueness of results.
* C94 (`OrderProofs`): a rule fails at once, without touching the indentation, where the text does not begin like it; then by induction on the derivation. Swaps can be taken back, because the kinds are kept, so that no termination is needed.
* C95 (`AheadProofs`): by induction on the derivation on the first text, all of whose errors end at q or before: a rule that fails leaves an error at or behind its beginning, so everything that is read before it ends at q or before, and is read from the second text as well, with the same errors.
* C96 (`PlaceProofs`): what is read is generated with its ranges, by mutual induction on `reads` (`reads_placed`); conversely in a clear syntax generated texts are read with these ranges, by mutual induction on `places` with the failures shown for C76 (`placed_read`). Generation does not depend on the place (`places_moved`), and repetitions of generated texts are generated.
* C97 (`EditProofs`): by mutual induction on `places`, with the node located by its surrounding brackets (`node_split`); replacing the text of a node gives a text that the same rule generates with adjusted data (`places_edit`). C76 turns generation into acceptance, and generation does not depend on the place, so that text can be pasted from other documents.
* C98 (`ReformatProofs`): by mutual induction on `reads`: white space that no data covers was read by one rule for white space, and up to its end since that rule is greedy (`run_end`); with other white space there the rule generates the text with adjusted data (`reads_spaced`). C76 turns generation into acceptance.
* C99 (`PartProofs`, `PartPublic`): what may be empty, begin, go on and be generated is the same for the old rules when a last rule is added that refers to one of them, by induction on each of these relations; so the new syntax is valid, well formed and clear. Then C76 with ranges in both directions, and C97.
* C100 (`ItemsProofs`, `ItemsPublic`): by induction on how a rule generates a text, a node of the name is either the whole text of the rule or stands in a list, an optional part or a select, at a place where any other text of these may stand, with ranges behind and around adjusted; lists of items put together are lists again. Then C76 with ranges in both directions; the other statements are instances.
* C101 (`ExchangeProofs`): the text of the second node is replaced and then that of the first one, both on the level of grammars (C97, `places_edit`), so that no bound on the length of the text in between is needed; the exchanged text is a permutation of the text, so that columns still fit.
* C102 (`SortProofs`): induction over the permutation with the text and data in front as parameters; the step is the exchange of two neighbours (C101, `exchange_places`) on the level of grammars. Both adjustments of an exchange together leave what begins up to the first or behind the second node unchanged (`twice_kept`), so that the shape of the row is kept (`row_kept`).
* C103 (`ChangeProofs`): induction over the grammar with places (`places_change`), as for nodes in C97 but for single values; then the way back from the grammar to the parser (C76). `AlterProofs`: the same with the select around the value (`places_alter`).

## 4. Findings (properties that are false of the code)

Each is confirmed by a `_refuted` theorem with a witness.

1. C22 `C22_same_acceptance_refuted`: a fast select with a tail rejects at end of text
   although a tail alternative would accept the empty text. `syntax()` always optimises, so
   `{"a" "b" .w?}` rejects "". Exactly this changes and nothing else (C72); behind a `!` it makes
   texts accepted that were rejected (`C72_only_fewer_refuted`: `!{"a" "b" .w?}` and "").
2. C33 `C33_no_trailing_refuted`: `.s?(by rule)` / `.s!(by rule)` accept a trailing
   separator, contrary to the docs. No text at all yields a list without trailing
   separator (`C33_always_trailing`).
3. C27 `C27_undefined_string_refuted`: an undefined `_ref` inside a sequence or select
   silently drops the sub rule.
4. C09 `C09_terminates_refuted`, `C09_left_recursion_refuted`, C23
   `C23_optimize_terminates_refuted`: `.r?(.w?)` loops forever; left recursion overflows the
   stack, even in `syntax()` (`C30_left_recursion_refuted`).
5. C10 `C10_index_refuted`, `C10_tail_refuted`, `C10_column_refuted`: a node index out of
   range, a fast select tail out of range and a column of 2^32 panic. (Syntaxes from
   `syntax()` have neither of the first two, `C29_parse_no_panic`.)
6. C25 `C25_truncated_refuted`, `C25_unopened_refuted`: `convert` loops forever on truncated
   data and underflows on over-closed data.
7. C28 `C28_gaps_refuted`: debug ids are not numbered without gaps when a sub item is
   dropped or duplicated.
8. C30 `C30_large_number_refuted`: a huge node id overflows `id * 1000`.
9. C17 `C17_failed_alternative_refuted`, `C17_acceptance_refuted`: the alignment of a failed
   `.l+` block leaks into later alternatives and changes what is accepted.
10. C37 `C37_valid_refuted`, `C37_infinity_refuted`: control characters are written raw by
    `json::write_string`; infinite and NaN numbers are written as no JSON number.
11. C39 `C39_location_refuted`: error reports mix byte lengths with character offsets.
12. C03 `C03_failure_restores_refuted`: a failed parse leaves extra tokens in the caller's
    vector.
13. C36 `C36_panics`: `json::write` underflows exactly on over-closed data.
14. C50 `C50_reflexive_refuted`: `PartialEq` of a fast select is always false, so a syntax
    read from a text with an optimised select does not equal itself.
15. C54 `C54_equivalent_refuted`: rewriting by laws that hold in the old syntax only may lose
    termination (a limit of the property, not an error in the code).
16. C45 `C45_comment_line_refuted`: `/*/*/` is accepted as a comment if no `*/` follows
    anywhere in the text. The inner comment then fails at the end of the text, its slash is
    taken as a character of the outer comment, and `*/` closes it. Adding a comment line
    `// */` below makes the text an error.
17. C58 `C58_polynomial_refuted`, `C58_doubling`: the built-in rules need exponential time for
    comments that are opened and not closed. `/* ` thirty times makes `syntax()` hang.
18. C57 `C57_depth_needed`: nested comments exhaust any stack, although the text is accepted.
19. C60 `C60_old_equal_refuted`: the assertion of examples/bootstrap_old.rs fails. It compares
    the optimised rules of `syntax()` with rules that are not optimised; and optimised selects are
    never equal (finding 14). The rules are the same otherwise (`C60_old`).
20. C61 `C61_siblings_refuted`, `C61_tab_is_spaces_refuted`: a tab that goes beyond the column
    outside of a block counts only up to that column. In a text indented with tabs, the lines
    of one block from the third level on are read as parts of each other: with the rules of
    examples/indent.rs `3` and `4` below are nested although they have the same indentation,
    `1 / TAB 2 / TAB TAB 3 / TAB TAB 4`. With four spaces for a tab they are siblings.
21. C61 `C61_same_indentation_refuted`: lines of the same indentation, a tab and a space, in an
    inner block: the second is not read and the text is rejected.
22. C61 `C61_deeper_tab_refuted`: a line deeper than its block is left out if a space follows the
    column, but not if a tab does.
23. C64 `C64_proportional_refuted`: `syntax()` takes time exponential in the nesting of selects. A
    select of more than two alternatives whose first two do not begin with different bytes has all
    its alternatives but the first optimised twice (src/optimize.rs:135-151), and the first result
    is thrown away: it is built as a `Select` and then tested for being a `FastSelect`, which never
    holds. `1 doc = {.w? .w? {.w? .w? {.w? .w? …}}}` with 40 levels, 411 characters, takes more than
    10^12 calls.
24. C66 `C66_reported_refuted`: a misspelled rule name is not reported by `syntax()`. The reference
    then acts as an alternative that was never written: `1 doc = {nam "x"}` is accepted, and so is
    the text `x`. Only if the reference is reached and gives the deepest failure does parsing say
    `Node rule is not updated to reference`.
25. C68 `C68_unknown_items_refuted`: conversion passes over unknown items in nodes and in rules of
    ten kinds, but a `whitespace` rule (as well as `optional`, `not`, `lines`, texts and strings) that
    holds one is not read at all; inside a sequence or select it is then silently left out.
26. C73 `C73_printable_refuted`: the text `"\b"`, which consists of printable characters and is valid
    JSON itself, is read as a backspace and written raw, so the output is not JSON. The same with `\f`.
27. C73 `C73_unique_keys_refuted`: items of the same name, for example from `.r!("a":"k")`, become
    members of the same name; most readers of JSON keep one of them.
28. C74 `C74_page_columns_refuted`: with `.l+`, an item on the same line as the item above it starts a
    block whose column is counted from the end of the item above. In `1  2` followed by the line `   3`
    the items 2 and 3 stand in the same column of the page, but 3 becomes part of 2. (That the first line
    of a block may be on the line of the item above is part of the reconstruction of `ReadToken::lines`.)
29. C74 `C74_separated_refuted`, `C74_glued_refuted`: below the outermost item the column may be 0, so that an item may even follow
    it immediately: `1-2` is read as 2 with a minus sign inside 1.
30. C75 `C75_leave_refuted`: `for_end_node` does not count nesting. Inside a node that contains a node
    of the same name it continues behind the inner node, still inside of the outer one.
31. C76 `C76_exact_refuted`, `C76_greedy_refuted`: a syntax read as a context-free grammar promises more
    than parsing keeps: `{"a" "ab"}` rejects `ab`, `[.r?("a") "a"]` rejects `aa`. That choice is ordered
    and repetition greedy is inherent to the design; C76 gives the condition under which it cannot be seen.
32. C77 `C77_lookahead_refuted`: negated rules may be expensive even where nothing else is. In a clear
    syntax without them the number of calls is linear; `doc = {["(" doc ")"] !.r!("(")}` makes
    quadratically many calls on a row of opened brackets.
33. C78 `C78_no_more_calls_refuted`: where optimisation changes what is accepted (finding on C22, an
    alternative behind the table that reads nothing at the end of the text), it may also make parsing
    slower: the choice is lost and dearer alternatives behind it are tried, 9 calls in place of 5.
34. C79 `C79_keeps_refuted`: a further alternative at the end of a select, which is tried only where all
    others have failed, may still make the syntax reject a text it accepted: around the select a
    repetition may now read further. Inherent to greedy repetition; C79 gives a condition that excludes it.
35. C80 `C80_completed_refuted`, `C80_grammar_refuted`: for `[.r?("a") "a"]` and `aab` the error stands
    behind `aa`, which no accepted text begins with (none is accepted at all); `doc = ["a" doc]` is valid
    and well-formed but generates nothing. Inherent to the design; nothing reports such syntaxes.
36. C81 `C81_tag_refuted`: where the next character does not decide, an error may demand a token that
    does not help: `[.r?("a") "a"]` demands another `a` behind any number of them. Inherent to greedy
    repetition; the message is right about the grammar (C81_grammar), not about the parser.
37. C83 `C83_columns_refuted`: with a column beyond 32 bits (an `Indent` set by the caller to the largest
    `u32`) a debug build panics, while an optimised build goes on with a wrapped column and accepts.
38. C83 `C83_ids_refuted`: in an optimised build a large number of a node wraps, so that two rules may
    get the same debug id: `2305843009213693952 a = "x"` and `0 doc = [a a]` (2^61 times 1000 is 0 modulo
    2^64). A debug build panics on this text (finding on C30). Debug ids only name rules in messages,
    so nothing else is affected.
39. C83 `C83_unopened_refuted`: data that ends a node that was not started makes a debug build of `convert`
    panic, and an optimised one loop forever while it pushes to `ignored`.
40. C83 `C83_json`: data that closes more than it opened makes a debug build of `json::write` panic, and an
    optimised one write 4 GB of spaces for a single item.
41. C84 `C84_order_refuted`: `update_refs` does not look into fast selects (src/meta_rules/rule.rs), so a
    syntax that is optimised before its references are resolved has references that can never be
    resolved. `syntax()` calls them in the right order.
42. C85 `C85_thousand_refuted`: the documentation says that error `#4003` was caused by a rule in the
    node starting with 4. A node with 1000 rules or more uses the numbers of the next node: the 1000th
    rule of `1 doc = […]` reports `#2000`. Nothing warns of this, nor of two nodes with the same number.
43. C86 `C86_deepest_refuted`: what a failed parse leaves in the vector is not what was read in front of the reported
    error. `{["a":"x" "b":"y" "c"] ["a":"z" "d"]}` on `ab!` reports the missing `c` at 2, and leaves `z` of the second
    alternative.
44. C87 `C87_line_refuted`, `C87_tag_refuted`: `..."\n"!:"line"` stores a carriage return at the end of each line of a
    file with Windows line breaks, and the token `"\n"` matches no line break of such a file.
45. C87 `C87_message_refuted`: also where both kinds of line breaks are accepted alike, another error may be reported,
    because what is read up to `\n` contains the carriage return and reaches further.
46. C87 `C87_mark_refuted`: a byte order mark in front of a syntax text is not white space; the text is rejected.
47. C89 `C89_words_refuted`: with the rules of examples/key_value.rs a value such as `1.2.3`, `2015-02-01` or `trueish`
    is an error instead of a word, because the number or truth value at its beginning is taken and never given back.
48. C89 `C89_quote_refuted`, `C89_missing_refuted`: with the same rules a string without closing quote is silently read as
    a word, and a missing value is silently taken from the next line.
49. C90 `C90_linear_refuted`: `json::write` indents by one space for each open node, so that its output grows with the
    square of the length of a text with deeply nested nodes (`1 doc = ["(" ?doc:"a" ")"]` on n pairs of parentheses).
50. C93 `C93_indented_refuted`: a failed alternative does not restore the indentation that its indented lines changed, so
    that an exact copy of an alternative that failed may succeed later in the same select
    (`{[.l+("1") "1\n  1"] ["1\n" .l+("1") "z"] [.l+("1") "1\n  1"]}` on `1\n  1`).
51. C95 `C95_text_refuted`, `C95_lines_refuted`, `C95_not_refuted`: the reported place is not always next to the mistake. A
    string literal that is not closed is reported as `Expected text` at its opening quote, however long it is, a missing
    line break in front of all the white space, and a mistake inside a negated rule at the beginning of the negation.
52. C96 `C96_joined_refuted`: files of a syntax that repeats items cannot always be concatenated, though each is accepted:
    with `.r?(.$:"n")` the files `1` and `20` become one number `120`. Clear syntaxes (C76) do not have this.
53. C97 `C97_pasted_refuted`: with `0 w = {"ab" "a"}` and `1 doc = {[w:"w" ";"] [w:"w" "bc"]}` the node `w` of `a;` cannot be
    pasted over the node `w` of `abbc`: `abc` is rejected, since `w` reads `ab` there. Clear syntaxes do not have this.
54. C98 `C98_unclear_refuted`, `C98_token_refuted`: white space is not always exchangeable. In a select whose first
    alternative reads up to a line break, a line break instead of a space gives other data, and white space written in a
    token stands for itself only.
55. C99 `C99_read_refuted`, `C99_reparsed_refuted`: without clearness parts cannot be read on their own. With
    `0 w = ["a" !!"b"]` the node `w` of `ab` is read only because `b` follows, and the text `a`, which the rule `w` of finding
    53 accepts alone, is not accepted where `ab` stood.
56. C100 `C100_inserted_refuted`: with `0 w = {"ab" "a"}` and `1 doc = [.r!(w:"w") "b"]` the document `aabb` has the items `a`
    and `ab`, but `a` cannot be inserted behind `ab`: `aabab` is rejected. Clear syntaxes (C76) do not have this.
57. C101 `C101_exchanged_refuted`: with `0 w = {"ab" "a"}` and `1 doc = [w:"w" "b" w:"w" "!"]` the nodes of `abba!` cannot be
    exchanged: `abab!` is rejected, since the first `w` reads `ab` again.
58. C102 `C102_sorted_refuted`: the same syntax. The items `ab` and `a` of `abba!`, with `b` between them, cannot be put in the
    other order.
59. C103 `C103_changed_refuted`: with `1 doc = {["1" "x"] [.$:"n" "x"]}` the number in `2x` cannot be changed to `1`: `1x` is
    accepted by the first alternative, and the number is not in the data any more.

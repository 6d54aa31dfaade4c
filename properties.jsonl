{"id": "C01", "title": "Parsing equals the declarative rule semantics", "statement": "parse/parse_with_indent returns Ok exactly when the last rule of the syntax, read as a declarative ordered-choice grammar (the meanings in the README rule table), accepts the whole text; the tokens appended are exactly those emitted by the accepted derivation, in order, regardless of how many alternatives were tried and abandoned.", "quantifier": "all syntaxes (every rule kind, any nesting, recursive nodes), all texts, all initial token vectors, all indent settings", "why_tests_cant": "The statement ranges over every grammar and every text, and over every backtracking history; the implementation truncates and re-uses one shared token vector, so a stale or lost token shows up only for particular combinations of failures.", "anchors": ["src/meta_rules/mod.rs:parse_with_indent", "src/meta_rules/rule.rs:Rule::parse", "src/tokenizer.rs:read_data"]}
{"id": "C02", "title": "The reported error is the newest of the deepest failures", "statement": "When parse returns an error, that error is one of the failures raised while reading (outside negative lookahead), no raised failure reaches further into the text, and among the equally deep ones it is the last raised.", "quantifier": "all syntaxes, texts, indent settings for which parse returns an error", "why_tests_cant": "It compares the result with the whole history of attempts, which tests never observe, over all grammars.", "anchors": ["src/meta_rules/mod.rs:err_update", "src/meta_rules/mod.rs:ret_err", "src/meta_rules/mod.rs:parse_with_indent"]}
{"id": "C03", "title": "The caller's existing tokens are never touched", "statement": "If the token vector passed to parse already holds data, a successful parse leaves it as old data followed by the new tokens, and a failed parse leaves the old data as a prefix. (A failed parse does not restore the vector's length.)", "quantifier": "all syntaxes, texts, initial vectors, both outcomes", "why_tests_cant": "Needs every truncate performed by every rule in every backtracking order to stay above the initial length.", "anchors": ["src/tokenizer.rs:read_data", "src/meta_rules/mod.rs:parse_with_indent"]}
{"id": "C04", "title": "Start and end of nodes are well nested", "statement": "The tokens appended by a successful parse are well nested: every StartNode(n) is closed by an EndNode(n) of the same name, properly nested, nothing left open.", "quantifier": "all syntaxes, texts, indent settings with a successful parse", "why_tests_cant": "Consumers recurse on this structure; one counter-example grammar would break all of them; tests only see a few grammars.", "anchors": ["src/meta_rules/node.rs:Node::parse", "src/tokenizer.rs:read_data"]}
{"id": "C05", "title": "Token ranges are sound", "statement": "Every token range lies inside the text; the end positions of the tokens never decrease along the vector; each StartNode has the empty range at the point where its node starts, and the matching EndNode has the range of the whole node, which starts at that point and contains the ranges of everything in between.", "quantifier": "all syntaxes, texts, indent settings with a successful parse", "why_tests_cant": "Universally quantified over grammars and texts; source highlighting and Convert::source depend on it.", "anchors": ["src/meta_rules/node.rs:Node::parse", "src/meta_rules/tag.rs:Tag::parse", "src/meta_rules/until_any.rs:UntilAny::parse", "src/meta_rules/text.rs:Text::parse", "src/meta_rules/number.rs:Number::parse"]}
{"id": "C06", "title": "Token values come from the text under their range", "statement": "The value of a string token produced by an until rule is exactly the text under its range; for a text rule the range covers a quoted literal and the value is its unescaped content; for a number rule the value is the number written under the range; a Bool token has the polarity of the tag rule that made it.", "quantifier": "all syntaxes, texts, indent settings with a successful parse", "why_tests_cant": "Relates every emitted token to the input across all backtracking histories.", "anchors": ["src/meta_rules/until_any.rs", "src/meta_rules/until_any_or_whitespace.rs", "src/meta_rules/text.rs", "src/meta_rules/number.rs", "src/meta_rules/tag.rs"]}
{"id": "C07", "title": "Success means the entire text was read", "statement": "parse returns Ok only if the last rule read every character of the text; if that rule succeeds but stops early, parse returns an error at or beyond the stopping point.", "quantifier": "all syntaxes, texts, indent settings", "why_tests_cant": "Quantifies over all grammars and texts.", "anchors": ["src/meta_rules/mod.rs:parse_with_indent"]}
{"id": "C08", "title": "Error ranges lie inside the text", "statement": "The range of any error returned by parse starts and ends inside the text (offset+length <= number of characters).", "quantifier": "all syntaxes, texts, indent settings with a failing parse", "why_tests_cant": "Every failure site of every rule kind contributes; ParseErrorHandler relies on it.", "anchors": ["src/meta_rules/mod.rs:parse_with_indent", "src/parse_error_handler.rs:ParseErrorHandler::write"]}
{"id": "C09", "title": "Parsing terminates for well-formed grammars", "statement": "If the grammar passes a decidable check (no node reachable from itself before something must be consumed; no repeat/separate-by body that can succeed without consuming), parse returns (Ok or Err) on every text. Without the check it can loop forever: `.r?(.w?)` never returns on any text.", "quantifier": "all syntaxes passing the check, all texts, indent settings; refutation by witness for the unrestricted claim", "why_tests_cant": "Termination on all inputs is not observable by testing.", "anchors": ["src/meta_rules/repeat.rs:Repeat::parse", "src/meta_rules/separate_by.rs:SeparateBy::parse", "src/meta_rules/node.rs:Node::parse", "src/meta_rules/lines.rs:Lines::parse"]}
{"id": "C10", "title": "Parsing a valid syntax does not panic", "statement": "If every resolved node index is in range and every fast-select table is well formed, parse never panics on texts short enough that the indentation counter cannot overflow. A hand-built syntax with an out-of-range node index does panic.", "quantifier": "all valid syntaxes, all texts below the size bound, all indent settings", "why_tests_cant": "Absence of panic over all inputs.", "anchors": ["src/meta_rules/node.rs:Node::parse", "src/meta_rules/fast_select.rs:FastSelect::parse", "src/meta_rules/lines.rs:Lines::parse"]}
{"id": "C11", "title": "Optional and negative lookahead leave no trace", "statement": "?rule always succeeds, consumes nothing and adds no token when the sub rule fails, and behaves as the sub rule when it succeeds. !rule succeeds iff the sub rule fails, and never consumes or adds tokens. !!rule succeeds iff rule succeeds.", "quantifier": "all sub rules (any nesting), texts, positions, token vectors", "why_tests_cant": "Quantifies over arbitrary sub rules.", "anchors": ["src/meta_rules/optional.rs:Optional::parse", "src/meta_rules/not.rs:Not::parse"]}
{"id": "C12", "title": "Repetition is maximal and counts correctly", "statement": ".r?(rule) and .r!(rule) succeed with exactly the concatenation of k consecutive successful readings of rule such that rule fails at the end point, with k >= 0 for `?` and k >= 1 for `!`; .r! fails iff rule fails at the start.", "quantifier": "all sub rules, texts, positions", "why_tests_cant": "Arbitrary sub rules and unbounded repetition counts.", "anchors": ["src/meta_rules/repeat.rs:Repeat::parse"]}
{"id": "C13", "title": "Separated lists", "statement": "A separate-by rule reads item (sep item)*, ending at the last item, or right after a separator only if trailing is allowed; with trailing disallowed a separator not followed by an item makes the whole rule fail; zero items only when optional.", "quantifier": "all item and separator rules, texts, the four flag combinations", "why_tests_cant": "Arbitrary sub rules and unbounded lists.", "anchors": ["src/meta_rules/separate_by.rs:SeparateBy::parse"]}
{"id": "C14", "title": "Lines read one item per line", "statement": "A lines rule reads a sequence of items such that between the reading of two consecutive items there is a line break, blank lines are skipped, it stops at the start of the first line where the item fails, and it fails only when an item is followed by non-blank text on the same line.", "quantifier": "all sub rules, texts, positions, both indent modes", "why_tests_cant": "Arbitrary sub rules, unbounded number of lines.", "anchors": ["src/meta_rules/lines.rs:Lines::parse"]}
{"id": "C15", "title": "Indented blocks contain only lines at the block's column", "statement": "With space-only indentation, every line read by one .l+ block after the first has exactly as many leading spaces as the block's indentation, which is the indentation of the first line when align_first is set (and at least the enclosing indentation), or the enclosing indentation otherwise; nested blocks are strictly deeper.", "quantifier": "all sub rules, texts indented with spaces, indent settings", "why_tests_cant": "Universally quantified over blocks and nesting depth.", "anchors": ["src/meta_rules/lines.rs:Lines::parse", "src/meta_rules/indent_settings.rs"]}
{"id": "C16", "title": "Indent settings are irrelevant without .l+", "statement": "For a syntax with no indented lines rule, the result of parse_with_indent does not depend on the indent settings.", "quantifier": "all syntaxes without an indented lines rule, all texts, all pairs of indent settings", "why_tests_cant": "Universally quantified non-interference.", "anchors": ["src/meta_rules/mod.rs:parse_with_indent", "src/meta_rules/lines.rs:Lines::parse"]}
{"id": "C17", "title": "Failed alternatives do not influence later ones", "statement": "When an alternative of a select fails, the following alternatives behave as if it had not been tried. True for grammars without .l+; false in general: the alignment of a failed .l+ block stays in the indent settings and changes what the next alternative accepts.", "quantifier": "all selects; proved without .l+, refuted by witness with .l+", "why_tests_cant": "Needs all grammars for the positive part, an adversarial grammar for the negative part.", "anchors": ["src/meta_rules/select.rs:Select::parse", "src/meta_rules/lines.rs:Lines::parse"]}
{"id": "C18", "title": "Debug ids influence only the ids in error messages", "statement": "Changing debug ids of rules changes neither acceptance, nor tokens, nor error positions and kinds, only the ids inside errors.", "quantifier": "all pairs of syntaxes equal up to debug ids, all texts", "why_tests_cant": "Relational property over all grammars.", "anchors": ["src/meta_rules/rule.rs:Rule::parse", "src/parse_error.rs:ParseError"]}
{"id": "C19", "title": "Reference resolution", "statement": "update_refs sets each unresolved node reference (outside fast selects) to the index of the first rule of that name, leaves it unresolved iff there is none, never produces an out-of-range index, leaves everything else unchanged, and is idempotent. Parsing an unresolved reference is an InvalidRule error.", "quantifier": "all syntaxes", "why_tests_cant": "All rule trees.", "anchors": ["src/meta_rules/rule.rs:Rule::update_refs", "src/meta_rules/mod.rs:update_refs", "src/meta_rules/node.rs:Node::parse"]}
{"id": "C20", "title": "First-byte analysis is sound", "statement": "If unique_byte reports byte b for a rule, then at end of text or in front of a character whose UTF-8 encoding does not start with b the rule fails, with an error at the current position, without changing indentation or committed tokens.", "quantifier": "all rules, reference tables, texts, positions", "why_tests_cant": "All grammars and all Unicode characters.", "anchors": ["src/optimize.rs:unique_byte"]}
{"id": "C21", "title": "Fast select tables", "statement": "unique_table_from_select returns a table that maps byte b to i iff i is below the returned count and alternative i has unique byte b, the bytes below the count are pairwise distinct, and the count is the largest such prefix (at most 255).", "quantifier": "all selects, all reference tables", "why_tests_cant": "All grammars, including more than 255 alternatives.", "anchors": ["src/optimize.rs:unique_table_from_select"]}
{"id": "C22", "title": "Optimisation preserves parsing", "statement": "For every syntax in which no alternative moved to a fast-select tail can succeed at end of text, the optimised syntax accepts the same texts with the same tokens, and when it rejects, the error reaches the same depth. Without the proviso it is false: {\"a\" \"b\" .w?} accepts the empty text but its optimised form rejects it.", "quantifier": "all syntaxes with the proviso, all texts and indent settings; refutation by witness without", "why_tests_cant": "Equivalence of two parsers on all grammars and texts.", "anchors": ["src/optimize.rs:optimize_rule", "src/lib.rs:Syntax::optimize", "src/meta_rules/fast_select.rs:FastSelect::parse"]}
{"id": "C23", "title": "Optimisation terminates for non-left-recursive grammars", "statement": "Syntax::optimize terminates when no node reaches itself through first positions; it overflows the stack on `[a \"x\"]`-style left recursion inside a select even if that rule is never used to parse.", "quantifier": "all syntaxes; refutation by witness", "why_tests_cant": "Termination.", "anchors": ["src/optimize.rs:unique_byte", "src/optimize.rs:optimize_rule"]}
{"id": "C24", "title": "Optimisation is idempotent", "statement": "Optimising an optimised syntax changes nothing.", "quantifier": "all syntaxes on which optimisation terminates", "why_tests_cant": "All grammars.", "anchors": ["src/optimize.rs:optimize_rule", "src/lib.rs:Syntax::optimize"]}
{"id": "C25", "title": "Conversion terminates on well nested data", "statement": "bootstrap::convert returns (Ok or Err) on every well nested token vector whose node ids are small enough not to overflow, without panic; on truncated data such as a lone StartNode(\"node\") it loops forever, and on data that closes a node it did not open it panics.", "quantifier": "all well nested token vectors; refutations by witness", "why_tests_cant": "Termination and panic freedom on all data.", "anchors": ["src/bootstrap/convert.rs:convert", "src/bootstrap/convert.rs:Convert::ignore"]}
{"id": "C26", "title": "Conversion reads back every rule tree", "statement": "For every list of named rule trees (all rule kinds except fast select), converting its meta data encoding returns those rules, with debug ids numbered from 1000 times the node id, references resolved, and nothing ignored.", "quantifier": "all lists of rule trees, any nesting, any strings", "why_tests_cant": "Infinite family of rule trees.", "anchors": ["src/bootstrap/convert.rs:convert"]}
{"id": "C27", "title": "Undefined strings are reported", "statement": "If a rule in the meta language refers to a string that is not defined, syntax() reports an error. False: inside a sequence or select the sub rule is silently dropped and syntax() returns Ok.", "quantifier": "all meta language texts; refuted by witness", "why_tests_cant": "Silent acceptance changes the language; tests would have to guess the case.", "anchors": ["src/bootstrap/convert.rs:read_set", "src/bootstrap/convert.rs:read_sequence"]}
{"id": "C28", "title": "Debug ids identify the node", "statement": "After conversion the debug ids within one node rule are pairwise distinct, strictly greater than 1000 times the node id, numbered in order of completion without gaps when nothing is ignored, and therefore identify the node when it has fewer than 1000 sub rules.", "quantifier": "all well nested data accepted by convert", "why_tests_cant": "All rule trees.", "anchors": ["src/bootstrap/convert.rs:read_node", "src/lib.rs"]}
{"id": "C29", "title": "Converted syntaxes are valid", "statement": "Every syntax returned by convert or syntax has one name per rule, in-range node indices and well-formed fast-select tables, hence parsing with it cannot panic (texts below the size bound).", "quantifier": "all token vectors / all meta language texts for which conversion returns Ok, then all data texts", "why_tests_cant": "Composition of two universally quantified claims.", "anchors": ["src/bootstrap/convert.rs:convert", "src/lib.rs:syntax"]}
{"id": "C30", "title": "Reading a syntax terminates up to optimisation", "statement": "The parse with the built-in rules and the conversion inside syntax() terminate on every text, without panic when node ids are small and the text is below the size bound. A large node id makes syntax() panic with an arithmetic overflow.", "quantifier": "all meta language texts; refutation by witness for the unrestricted claim", "why_tests_cant": "Termination and panic freedom on all texts.", "anchors": ["src/lib.rs:syntax", "src/bootstrap/rules.rs:rules", "src/bootstrap/convert.rs:convert"]}
{"id": "C31", "title": "The self syntax describes exactly the built-in language", "statement": "The rules obtained from assets/self-syntax.txt parse every text exactly as the rules hard coded in Rust: same acceptance, same tokens, same error positions and kinds.", "quantifier": "all texts", "why_tests_cant": "Equality of two parsers on all texts; the bootstrap example only compares the result on one text.", "anchors": ["assets/self-syntax.txt", "src/bootstrap/rules.rs:rules", "examples/bootstrap.rs"]}
{"id": "C32", "title": "The optimised built-in rules are equivalent to the built-in rules", "statement": "For every text, parsing with the optimised built-in rules, as syntax() does, gives the same tokens as parsing with the built-in rules, or both fail at the same depth.", "quantifier": "all texts", "why_tests_cant": "Equality of two parsers on all texts.", "anchors": ["src/lib.rs:syntax", "src/bootstrap/rules.rs:rules", "src/optimize.rs"]}
{"id": "C33", "title": "Separated lists without the dot forbid trailing separators", "statement": "As documented, `.s?(by rule)` and `.s!(by rule)` written in the meta language do not accept a trailing separator. False: conversion defaults allow_trail to true and no syntax can express false.", "quantifier": "all meta language texts using .s without the dot; refuted by witness", "why_tests_cant": "No test exercises it; the claim is about the pipeline from text to parser.", "anchors": ["src/bootstrap/convert.rs:read_separated_by", "assets/self-syntax.txt"]}
{"id": "C34", "title": "JSON strings round trip", "statement": "Reading back what json::write_string wrote, with a text rule, yields the original string, consuming exactly the written characters whatever follows; distinct strings are written differently.", "quantifier": "all strings, all following texts", "why_tests_cant": "All strings over Unicode.", "anchors": ["src/json.rs:write_string", "src/meta_rules/text.rs:Text::parse"]}
{"id": "C35", "title": "JSON output has the structure of the data", "statement": "For well nested data json::write produces, between braces, a JSON object with the same nesting, names, order and values: an independent JSON reader returns the original tree. Hence two different well nested data sets are written differently.", "quantifier": "all well nested data (any depth), assuming numbers print without JSON punctuation", "why_tests_cant": "All trees.", "anchors": ["src/json.rs:write"]}
{"id": "C36", "title": "JSON writer panics exactly on over-closed data", "statement": "json::write panics iff in some prefix of the data the number of EndNodes exceeds the number of StartNodes by more than the overall imbalance; in particular never on well nested data; each line is indented by its nesting depth.", "quantifier": "all token vectors", "why_tests_cant": "Exact characterisation over all data.", "anchors": ["src/json.rs:write"]}
{"id": "C37", "title": "JSON output is valid JSON", "statement": "The strings written by json::write_string are valid JSON strings. False: control characters other than newline, return and tab are written raw, which JSON forbids; true for strings without them.", "quantifier": "all strings; refuted by witness, proved for strings without other control characters", "why_tests_cant": "Requires an adversarial string; the positive part is universal.", "anchors": ["src/json.rs:write_string"]}
{"id": "C38", "title": "Error report location", "statement": "For ASCII texts and any error range inside the text, the report contains the 1-based line and column of the start of the range, followed by that line's text, and exactly one pointer line whose caret stands under that column (window of at most 100 characters on long lines); the report never panics for any text and range.", "quantifier": "all ASCII texts, ranges inside the text; no-panic for all texts and ranges", "why_tests_cant": "All texts and positions.", "anchors": ["src/parse_error_handler.rs:ParseErrorHandler::write", "src/parse_error_handler.rs:ParseErrorHandler::new"]}
{"id": "C39", "title": "Error report location with non-ASCII text", "statement": "The report points at the character where the error range starts for every text. False: line lengths are measured in bytes but ranges in characters, so any non-ASCII character before the error shifts the reported position.", "quantifier": "all texts; refuted by witness", "why_tests_cant": "Requires non-ASCII text before the error.", "anchors": ["src/parse_error_handler.rs:ParseErrorHandler::new"]}
{"id": "C40", "title": "Search finds the first match", "statement": "for_string/for_f64/for_bool/for_node/for_end_node call the closure exactly on the data after the first item that matches name and value, with that item's range, and return its result; if there is no match they return a Conversion error at the previous range.", "quantifier": "all data, names, values, closures", "why_tests_cant": "All data vectors and closures.", "anchors": ["src/search/src/lib.rs:Search"]}
{"id": "C41", "title": "Search readers advance only on success", "statement": "bool/f64/string/node/end_node succeed iff the next item has that kind and name; then they return its value and advance by one item recording its range; otherwise they return an error and leave the search unchanged.", "quantifier": "all search states, names", "why_tests_cant": "All states.", "anchors": ["src/search/src/lib.rs:Search"]}
{"id": "C42", "title": "Skipping an unknown item skips exactly one item", "statement": "Convert::ignore on well nested data spans exactly one leaf or one whole node; the meta_* and start/end readers span one item; update moves the cursor by the span, so offset plus remaining length is constant; Convert::source on a span of well nested parse output is the union of the token ranges.", "quantifier": "all well nested data and cursors into it", "why_tests_cant": "All trees.", "anchors": ["src/bootstrap/convert.rs:Convert"]}
{"id": "C43", "title": "parse_errstr agrees with parse", "statement": "parse_errstr returns Ok iff parse returns Ok, with the same tokens, and otherwise a string that starts with \"Error \" and the message of parse's error; it never panics when parse does not. parse_errstr uses the same indent settings as parse.", "quantifier": "all syntaxes, texts, token vectors, indent settings", "why_tests_cant": "All inputs.", "anchors": ["src/meta_rules/mod.rs:parse_errstr", "src/meta_rules/mod.rs:parse_errstr_with_indent", "src/parse_error_handler.rs:ParseErrorHandler::write"]}
{"id": "C44", "title": "Every rule tree can be written in the meta language", "statement": "For every list of named rule trees that the meta language can express there is a text such that syntax() on that text returns the optimised form of those rules (up to debug ids).", "quantifier": "all expressible rule trees with printable names and strings", "why_tests_cant": "Infinite family; exercises the whole pipeline text -> tokens -> rules.", "anchors": ["src/lib.rs:syntax", "src/bootstrap/rules.rs", "src/bootstrap/convert.rs"]}
{"id": "C45", "title": "Comments do not change a syntax", "statement": "Adding a comment line (// ... or /* ... */ with balanced nesting) between definitions does not change what syntax() does with a meta language text: same rules, same error, same panic, same divergence. The text may contain comments of its own but no /*/, for which the claim is refuted (an unfinished nested comment is accepted while no */ follows).", "quantifier": "all texts a and b accepted alone and together that contain no /*/, all comment texts", "why_tests_cant": "All texts and all comments, including texts that name undefined strings and literals of unknown readers.", "anchors": ["src/bootstrap/rules.rs", "assets/self-syntax.txt"]}
{"id": "C46", "title": "A syntax contains nothing that was not written", "statement": "Every rule name, every text, property and any-character set inside the rules of a syntax returned by syntax(), and every flag that differs from its default, comes from a string or flag token read from the text; the only rules not written in the text are the fast selects made by the optimiser. The same holds for convert() on any meta data.", "quantifier": "all texts and all meta data that are converted, all rules at any depth of the result", "why_tests_cant": "All texts; a wrong default or an invented or swapped property shows only on particular inputs.", "anchors": ["src/lib.rs:syntax", "src/bootstrap/convert.rs:convert"]}
{"id": "C47", "title": "Properties only name the tokens", "statement": "Renaming or dropping properties in the rules of a syntax changes parsing in one way only: the tokens with those property names are renamed or dropped. The same texts are accepted, and a rejected text gives the same error at the same place. This also holds when the properties are changed before optimisation.", "quantifier": "all syntaxes, all renamings, all texts and indent settings", "why_tests_cant": "Property names are threaded through every rule kind; a branch that depends on one is only seen on particular rules and texts.", "anchors": ["src/meta_rules/rule.rs:Rule::parse", "src/meta_rules/mod.rs:parse_with_indent", "src/optimize.rs:optimize_rule"]}
{"id": "C48", "title": "Names and numbers of rules do not matter", "statement": "Two syntaxes whose rules correspond, with references to corresponding rules, give the same tokens for accepted texts and the same error for rejected ones, whatever the rules are called and however they are numbered. Optimisation keeps the correspondence.", "quantifier": "all pairs of corresponding syntaxes, all texts", "why_tests_cant": "All renumberings of all syntaxes, including recursive ones.", "anchors": ["src/meta_rules/node.rs:Node::parse", "src/meta_rules/mod.rs:parse_with_indent", "src/optimize.rs:unique_byte"]}
{"id": "C49", "title": "Only the needed definitions matter", "statement": "Two syntaxes built with push and update_refs that end with the same rule, and in which the first definition of every name needed by that rule is the same, parse alike: unused definitions, repeated later definitions and the order of definitions other than the last do not matter. The same holds for the optimised syntaxes.", "quantifier": "all pairs of lists of definitions with references by name, all texts", "why_tests_cant": "All lists of definitions, any recursion between them.", "anchors": ["src/lib.rs:Syntax::push", "src/meta_rules/mod.rs:update_refs", "src/meta_rules/rule.rs:Rule::update_refs", "src/lib.rs:Syntax::optimize"]}
{"id": "C50", "title": "Equality of rules, syntaxes and meta data", "statement": "Two rules compare equal exactly if they are identical and contain no fast select; two syntaxes exactly if they are identical and no rule contains a fast select; two lists of tokens exactly if ranges, kinds, names and values are the same, with both zeros the same and NaN different from everything. (That a syntax equals itself is refuted: optimised select rules never do.)", "quantifier": "all rules, syntaxes and lists of tokens", "why_tests_cant": "Equality over all pairs of trees of unbounded size.", "anchors": ["src/meta_rules/fast_select.rs:FastSelect", "src/meta_rules/rule.rs:Rule", "src/lib.rs:Syntax", "src/lib.rs:MetaData"]}
{"id": "C51", "title": "syntax_errstr is syntax with a report", "statement": "syntax_errstr returns the syntax that syntax returns; when syntax returns an error, syntax_errstr returns the report of that error in that text, which starts with the message; it panics exactly when syntax panics.", "quantifier": "all texts", "why_tests_cant": "All texts, including those on which the reader fails at the very end of a huge text.", "anchors": ["src/lib.rs:syntax_errstr", "src/parse_error_handler.rs:ParseErrorHandler::write"]}
{"id": "C52", "title": "load_syntax_data parses the data or reports the first problem", "statement": "load_syntax_data returns tokens exactly if both files can be read, the first is a meta syntax, and the second is accepted by it, and then returns the tokens of that parse. Otherwise it ends with the first of these problems: unreadable syntax file, error in the syntax reported in the text of the syntax, unreadable data file, error in the data reported in the text of the data.", "quantifier": "all pairs of files", "why_tests_cant": "All pairs of files, unbounded contents.", "anchors": ["src/lib.rs:load_syntax_data", "src/parse_error_handler.rs:stderr_unwrap"]}
{"id": "C53", "title": "What is read does not depend on where it stands", "statement": "A rule applied to the same remaining text at another position succeeds or fails alike, consumes as many characters, leaves the same indentation state and gives the same tokens, moved by the difference. For a start rule behind a fixed text, the rest of the text gives the same tokens and the same error as it gives when parsed alone, moved by the length of the fixed text.", "quantifier": "all rules, rule tables, texts, positions and indent settings", "why_tests_cant": "All positions, rules and texts; an absolute offset used once by mistake shows only for particular nestings.", "anchors": ["src/meta_rules/rule.rs:Rule::parse", "src/meta_rules/sequence.rs:Sequence::parse", "src/meta_rules/mod.rs:parse_with_indent"]}
{"id": "C54", "title": "Rules may be inlined, regrouped and simplified", "statement": "A reference without property may be replaced by the rule it refers to; a sequence or select of one rule by that rule; nested sequences and nested non-empty selects may be flattened; an optional rule that cannot fail may be replaced by the rule; alternatives behind one that cannot fail may be dropped; all this in any context and any number of times. The rewritten syntax gives the same tokens for accepted texts and the same error for rejected ones, provided the rewriting can be undone with the new rules; without that proviso it gives no other results, but may not terminate (refuted by witness).", "quantifier": "all syntaxes, all chains of rewriting steps, all texts and indent settings", "why_tests_cant": "Unboundedly many rewritings of unboundedly many syntaxes; the error position depends on the whole history of failed attempts.", "anchors": ["src/meta_rules/sequence.rs:Sequence::parse", "src/meta_rules/select.rs:Select::parse", "src/meta_rules/node.rs:Node::parse", "src/meta_rules/optional.rs:Optional::parse", "src/meta_rules/mod.rs:parse_with_indent"]}
{"id": "C55", "title": "The meta language is exactly what its grammar says", "statement": "The built-in rules accept a text without /*/ if and only if it consists of string definitions, node definitions and comments, each on lines of its own and written as the documented grammar says, with all strings before all nodes. A text of such entries in another order is not accepted. With /*/ more is accepted (refuted by witness).", "quantifier": "all texts, all readers of text and number literals for which the end of a literal does not depend on what follows", "why_tests_cant": "That nothing else is accepted is a statement about all texts; ordered choice and greedy reading make the accepted set differ from the grammar as written.", "anchors": ["src/bootstrap/rules.rs:rules", "assets/self-syntax.txt", "src/lib.rs:syntax", "README.md"]}
{"id": "C56", "title": "Every text of the meta language has one meaning, and that is what is read", "statement": "Every accepted text without /*/ means a list of strings and a list of nodes, each with a rule or with none because a string name in it is not defined. A rule whose own text is undefined means no rule, and so does a rule whose only sub rule means none; an undefined property means no property; in sequences and selects the rules that mean nothing are left out. A text does not mean two different things. If all nodes have a rule, these rules are read from the text (up to debug ids, references resolved) and syntax() returns their optimised form; otherwise both fail with the same conversion error at position 0.", "quantifier": "all texts, strings and nodes whose debug ids fit into usize, all readers of text and number literals for which the end of a literal does not depend on what follows", "why_tests_cant": "Where an undefined name is lost depends on all the rules around it; that no accepted text falls outside and that no text has two readings are statements about all texts.", "anchors": ["src/bootstrap/convert.rs:convert", "src/bootstrap/rules.rs:rules", "src/lib.rs:syntax", "README.md"]}
{"id": "C57", "title": "The call stack that parsing needs grows linearly with the text, and must", "statement": "For a valid well-formed syntax there is a constant c such that parsing a text of n characters never has more than c * (n + 1) calls of Rule::parse active at the same time, and no loop makes more than n + 2 rounds. For the built-in rules no constant depth suffices: for every n there is an accepted text of 5 * (n + 1) characters (nested comments) that needs more than 5 * n calls at the same time, so syntax() can be made to overflow any fixed stack.", "quantifier": "all valid well-formed syntaxes, all texts, all token vectors and indentation settings; all depths", "why_tests_cant": "A test measures the depth on the texts it has; a bound for all texts of a length, and the growth without limit, are universally quantified.", "anchors": ["src/meta_rules/rule.rs:Rule::parse", "src/meta_rules/node.rs:Node::parse", "src/bootstrap/rules.rs:rules", "src/lib.rs:syntax"]}
{"id": "C58", "title": "How many calls parsing makes", "statement": "The number of calls of Rule::parse is a function of syntax, text and indentation: the size of the tree of calls, in which below every rule there are the rules it tries, where it tries them. For a well-formed syntax whose rules do not refer to each other in a circle it is bounded by a polynomial in the length of the text; for every well-formed syntax it is bounded by c to the power of the length plus one. With recursion a polynomial need not suffice: for the built-in rules there is for every n a text of 3 * n characters (comments that are opened and not closed) for which parsing makes at least 2 to the power of n calls (refuted by witness).", "quantifier": "all well-formed syntaxes, all texts, all token vectors and indentation settings", "why_tests_cant": "Complexity bounds quantify over all texts of all lengths; short test inputs do not show exponential growth.", "anchors": ["src/meta_rules/rule.rs:Rule::parse", "src/meta_rules/select.rs:Select::parse", "src/meta_rules/repeat.rs:Repeat::parse", "src/bootstrap/rules.rs:rules", "src/lib.rs:syntax"]}
{"id": "C59", "title": "Errors of the destination are passed on when writing JSON and error reports", "statement": "For any destination, json::write, ParseErrorHandler::write and write_msg either return Ok and the destination has taken exactly the bytes of the JSON text or report in order, or they return exactly the error that the destination reported for some piece, after it took everything in front of it, and make no further call. A destination that keeps count so holds a part of the text from the start. On over-closed data json::write panics after a text that depends on the data only. json::print and ParseErrorHandler::error panic if and only if the stream fails (or, for print, the data is over-closed). Writing to a Vec<u8> never fails, the bytes are valid UTF-8 and decode to the text, so that neither unwrap in syntax_errstr and parse_errstr_with_indent can panic.", "quantifier": "all destinations with all ways of failing, all meta data, all texts, ranges and errors", "why_tests_cant": "A test uses a vector or a particular failing writer; the guarantee is about a failure at any byte of any output on any implementation of io::Write.", "anchors": ["src/json.rs:write", "src/json.rs:write_string", "src/json.rs:print", "src/parse_error_handler.rs:ParseErrorHandler::write", "src/parse_error_handler.rs:ParseErrorHandler::write_msg", "src/parse_error_handler.rs:ParseErrorHandler::error", "src/lib.rs:syntax_errstr", "src/meta_rules/mod.rs:parse_errstr_with_indent"]}
{"id": "C60", "title": "Bootstrapping reproduces the rules", "statement": "Let the built-in rules read assets/self-syntax.txt, convert the data to rules, let those read the file, and so on: every round succeeds, all rounds from the first on yield the same rules (equal with ==, debug ids included), and these rules parse every text as the built-in rules do. Likewise for the old meta language: the rules of assets/old-syntax.txt read assets/old-self-syntax.txt and yield, in every round, exactly the rules that were read from assets/old-syntax.txt before optimisation, and these accept the same texts with the same meta data, and reject the others at the same depth, as the optimised rules. The equality that examples/bootstrap_old.rs asserts is refuted.", "quantifier": "any number of rounds; all texts parsed with the resulting rules", "why_tests_cant": "The examples run two rounds and compare syntaxes; that every later round agrees, and that the two rule sets cannot be told apart by any text, is beyond finitely many runs.", "anchors": ["examples/bootstrap.rs:main", "examples/bootstrap_old.rs:main", "assets/self-syntax.txt", "assets/old-syntax.txt", "assets/old-self-syntax.txt", "src/bootstrap/convert.rs:convert", "src/meta_rules/fast_select.rs:FastSelect"]}
{"id": "C61", "title": "Tabs and spaces in front of the lines of an indented block", "statement": "In a .l+ block that has its column c, a line with the leading blanks a is: not read if a is narrower than c (a tab counts tab_spaces); otherwise, with a1 the shortest part of a that is at least c wide, not read if a space follows a1, and else given to the sub rule behind a1. The first line of an aligning block inside column o gives it the column o plus the width of the blanks behind the shortest part that reaches o. Hence: all later lines are at the column; if the blanks of the first line can be cut at o, or are all tabs or all spaces, a later line with the same blanks is read by the block; if they can be cut at o, the column is their width; a line no wider than the column of a block is not taken by blocks inside its items. Not true in general (refuted): that lines of equal indentation are siblings, that a tab is as good as tab_spaces spaces, that a deeper line is left out.", "quantifier": "all sub rules, texts with tabs and spaces, indent settings, tab widths", "why_tests_cant": "The tests have three blocks at the top level, where a tab never crosses a column outside; the errors only appear with nesting, and the guarantees are for any mixture of blanks.", "anchors": ["src/meta_rules/lines.rs:Lines::parse", "src/meta_rules/indent_settings.rs:IndentSettings", "examples/indent.rs:main"]}
{"id": "C62", "title": "Exactly which syntaxes hang when they are read", "statement": "Optimising a syntax (and so syntax(), which always optimises) either returns or recurses forever, never panics, and it recurses forever exactly if some select is stuck: one of its first 255 alternatives starts, through first items of sequences, loops that are not optional, selects of one alternative, double negations and references, with a rule that starts with itself again, and all alternatives in front of it begin with known and different bytes. In particular a left recursive rule below a select of several alternatives is harmless here, and an endless alternative behind a repeated or unknown byte is not looked at.", "quantifier": "all syntaxes without index errors that were not optimised before; for syntax(): all texts with ids that do not overflow", "why_tests_cant": "Non-termination cannot be observed by a test, and both directions range over all cyclic grammars.", "anchors": ["src/optimize.rs:unique_byte", "src/optimize.rs:unique_table_from_select", "src/optimize.rs:optimize_rule", "src/lib.rs:syntax", "src/lib.rs:Syntax::optimize"]}
{"id": "C63", "title": "Exactly when parsing a text hangs", "statement": "parse() of a text with a given grammar either returns or runs forever, never both and nothing else, and it runs forever exactly if some rule is asked for again, at the same place of the text and with the same indentation settings, before it has answered: a reference that comes back to itself without having read anything, or a loop whose turn read nothing. So whether a text hangs does not depend on the token list passed in, left recursive grammars and loops over empty items are harmless on texts that do not reach them, and well-formed grammars never hang.", "quantifier": "all syntaxes without index errors, all texts whose columns fit u32, all indentation settings and token lists", "why_tests_cant": "Non-termination cannot be observed by a test; both directions range over all grammars and texts.", "anchors": ["src/meta_rules/mod.rs:parse", "src/meta_rules/mod.rs:parse_with_indent", "src/meta_rules/rule.rs:Rule::parse", "src/meta_rules/repeat.rs", "src/meta_rules/separate_by.rs", "src/meta_rules/node.rs", "src/meta_rules/lines.rs"]}
{"id": "C64", "title": "How much work optimisation is", "statement": "The extra turn that Syntax::optimize takes over the alternatives of a select (all but the first, if there are more than two and the first two do not begin with known and different bytes) never changes its result. The number of calls of optimize_rule is exactly: one per rule, with the alternatives behind the first of such selects counted twice; so it is at least the number of rules and at most that number times 2 to the nesting of selects of more than two alternatives. Not true (refuted): that the work is proportional to the syntax; there are texts of 10 d + 11 characters that syntax() accepts after at least 2^d calls.", "quantifier": "all syntaxes; for the exponential texts: all d below 2^60", "why_tests_cant": "Exact counts and bounds over all rule trees; and the slow syntaxes take longer than any test would wait.", "anchors": ["src/optimize.rs:optimize_rule", "src/optimize.rs:unique_table_from_select", "src/lib.rs:Syntax::optimize", "src/lib.rs:syntax"]}
{"id": "C65", "title": "Errors tell the truth", "statement": "If parse() fails, then there are no rules; or the error is ExpectedEnd and something is left at its place; or the error comes from a rule that is used from the start rule on, carries the debug id of that rule, and what it says of the text at its range is so: an expected tag is not there, a forbidden tag or text that a negated rule accepts is there, no white space, number or text begins there, the literal there is bad, a stop character or the end of the text is there, no alternative of a fast select is listed for the next byte, something else stands on the line, the select has no alternatives, or the reference is undefined.", "quantifier": "all syntaxes (optimised or not), texts, token lists and indent settings", "why_tests_cant": "The error reported is chosen among all failures of all alternatives tried; a test sees one grammar and one text.", "anchors": ["src/parse_error.rs:ParseError", "src/meta_rules/mod.rs:parse", "src/meta_rules/rule.rs:Rule::parse", "src/meta_rules/fast_select.rs", "src/meta_rules/not.rs", "src/meta_rules/lines.rs"]}
{"id": "C66", "title": "References to undefined rules", "statement": "In a syntax read by syntax() a reference is resolved, to the first rule of its name, exactly if the name is defined. Parsing is as if alternatives that are unresolved references had not been written, and elsewhere an unresolved reference reads nothing: removing them changes neither acceptance nor the data. The error about an unresolved reference is only given if one is used, with its debug id. Not true (refuted): that undefined names are reported by syntax() or by parse().", "quantifier": "all texts of syntaxes; all syntaxes, texts, token lists and indent settings", "why_tests_cant": "The equivalence ranges over all grammars with undefined names and all texts.", "anchors": ["src/meta_rules/node.rs:Node::parse", "src/meta_rules/mod.rs:update_refs", "src/lib.rs:syntax", "src/meta_rules/select.rs:Select::parse"]}
{"id": "C67", "title": "Texts of the meta language 1.0 are read as before", "statement": "The rules in assets/self-syntax-1.0.txt (and those in assets/new-self-syntax.txt), read by syntax(), accept exactly the texts that the built-in rules accept without a flag \"indent\" in the data, that is without indented lines, and with exactly the same data. So what syntax() converts for a text of the meta language 1.0 is the same as before, and indented lines are the only thing that was added.", "quantifier": "all texts; all tokens already present", "why_tests_cant": "It compares two grammars on all texts; equivalence of grammars is not something that samples settle.", "anchors": ["assets/self-syntax-1.0.txt", "assets/new-self-syntax.txt", "assets/self-syntax.txt", "src/bootstrap/rules.rs:rules", "src/lib.rs:syntax"]}
{"id": "C68", "title": "Conversion is a function on the trees of the data", "statement": "What bootstrap::convert() returns for well nested data is determined by the trees of the data alone, by a short description of what each node means: strings come first, the first definition of a string counts, the last of several items of one name counts, absent flags have fixed defaults, and data is converted exactly if every tree means something. The positions of the data play no role. Inside nodes and inside the rules of ten kinds, items of different names may change places and items of unknown names may be added or left out, and the result is the same but for debug ids. (Not for the other kinds: a whitespace rule with an unknown item is not read.)", "quantifier": "all well nested data; all rearrangements", "why_tests_cant": "It is about all orders, repetitions and additions of items in data of any depth; tests see the orders that the built-in grammar writes.", "anchors": ["src/bootstrap/convert.rs:convert", "src/bootstrap/convert.rs:Convert"]}
{"id": "C69", "title": "Data has the shape of the grammar", "statement": "What a text adds to the data, as trees, has the shape that the last rule of the syntax prescribes: the items and nodes of a sequence come in the order of the sequence, an alternative gives what one of its rules gives, repetitions and lists give at least one unless they are optional, lookahead gives nothing, texts contain no character that the rule excludes and are empty only where that is allowed, and nothing else is there. Every node, at any depth, belongs to a reference with that property in the syntax, and what is in the node has the shape of the rule referred to. The same holds with an optimised syntax, for the shape of the rule before it was optimised. So a consumer of the data can rely on the grammar without looking at the text.", "quantifier": "all syntaxes and their optimisations; all texts, all tokens already present, all indents", "why_tests_cant": "It speaks about the data of every accepted text of every grammar, at every depth; a consumer relies on it for texts nobody has tried.", "anchors": ["src/lib.rs:parse", "src/lib.rs:parse_with_indent", "src/meta_rules/rule.rs:Rule::parse", "src/optimize.rs", "src/lib.rs:MetaData"]}
{"id": "C70", "title": "How much data there is", "statement": "For a well-formed syntax there is a constant c such that a parse of a text of n characters adds at most c * (n + 1) items to the data, whether or not it succeeds, although parsing may make exponentially many calls (C58) and rules may give items without reading anything. And no character is used for two strings, numbers or flags: their ranges together are no longer than the text, again also when the parse fails and leaves what it had stored. So memory for the data is linear in the text.", "quantifier": "all well-formed syntaxes; all texts, all tokens already present, all indents", "why_tests_cant": "A bound on the growth for all texts of a grammar, with one constant per grammar, is a statement about infinitely many texts.", "anchors": ["src/lib.rs:parse", "src/lib.rs:parse_with_indent", "src/tokenizer.rs", "src/meta_rules/node.rs", "src/meta_rules/repeat.rs"]}
{"id": "C71", "title": "What conversion passes over", "statement": "The list of ignored ranges that bootstrap::convert hands back is exactly the list of the items it did not use, in a fixed order (items inside a dropped rule before the rule itself), whether conversion succeeds or fails; what was in the list before is kept. Each range is one whole item of the data: a leaf, or a node from its start to its end. If conversion succeeds and nothing was ignored, every string referred to anywhere in the rules is defined. So a caller who looks at the list notices every undefined string; syntax() does not look at it (C27).", "quantifier": "all well-nested data, all lists given to convert, successful and failed conversions", "why_tests_cant": "Which items are reported depends on the kind of rule, the nesting and the defined strings, for infinitely many documents; that nothing is dropped silently is a statement about all of them.", "anchors": ["src/bootstrap/convert.rs:convert", "src/bootstrap/convert.rs:Convert"]}
{"id": "C72", "title": "Exactly what optimisation changes", "statement": "For every syntax that optimisation returns from, whatever its rules are, the optimised syntax behaves like the same rules with one change: in each select whose first two or more alternatives begin with different known bytes, the alternatives behind those are tried only if some text is left. With that change the same texts are accepted with the same data, and the others are rejected at the same place. The change is determined by the rules. It is not a pure loss of texts: behind a `!` it makes texts accepted that were rejected.", "quantifier": "all syntaxes for which optimisation returns, all texts of Unicode scalar values, all token vectors and indentation states", "why_tests_cant": "Equivalence of two syntaxes is a statement about all texts; a test compares the two on the texts it has, and the difference shows only when the text ends where a select of a certain form is tried.", "anchors": ["src/optimize.rs:optimize_rule", "src/optimize.rs:unique_byte", "src/optimize.rs:unique_table_from_select", "src/meta_rules/fast_select.rs:FastSelect"]}
{"id": "C73", "title": "Which parsed texts give valid JSON", "statement": "What json::write writes for well nested data is, inside braces, a valid JSON document exactly if no string or name has a control character other than line feed, return and tab, and every number prints as a JSON number. So a text without such control characters and without backslashes, parsed with a syntax whose names have none either, gives valid JSON. With a backslash it need not: the printable text \"\\b\" gives a document that is not JSON. Keys of an object may repeat.", "quantifier": "all well nested data, all syntaxes, texts and token vectors from parse", "why_tests_cant": "Validity depends on each character of each string of arbitrary data; tests write a few strings and never the ones that break the document.", "anchors": ["src/json.rs:write", "src/json.rs:write_string", "src/meta_rules/text.rs:Text"]}
{"id": "C74", "title": "Outlines are read as the trees they show", "statement": "With rules as in examples/indent.rs, a node being an item followed by indented lines of nodes, every outline written with spaces is accepted and gives exactly the tree it shows: an item is inside the nearest item above it that stands further left, whatever columns, blank lines and trailing spaces are used. Conversely an accepted text without tabs is an outline of the tree in the data, and a text shows only one tree. The one exception: an item on the same line as the item above it is counted from the end of that item, not from the start of the line.", "quantifier": "all trees, all columns and gaps, all item rules that read whole items, all texts without tabs", "why_tests_cant": "Depth, columns, blank lines and the number of items are unbounded and interact through the indent settings; the example prints one tree.", "anchors": ["examples/indent.rs", "src/meta_rules/lines.rs:Lines", "src/meta_rules/node.rs:Node", "src/meta_rules/indent_settings.rs:IndentSettings"]}
{"id": "C75", "title": "Searching data that was parsed", "statement": "Whatever a program reads and looks for with the search API, starting from Search::new, its search stands between two items of the data and remembers the range of the item before; every such place can be got at. On data from parse, every error that a search returns has a range inside of the parsed text. Behind the start of a node its own end follows, and for_end_node finds that end exactly if no node of the same name is inside; otherwise it stops at an inner end.", "quantifier": "all data, all sequences of reads and searches, all syntaxes and texts", "why_tests_cant": "Programs combine reads and searches in any order on data of any nesting; the tests of the search crate try each operation on one flat list.", "anchors": ["src/search/src/lib.rs:Search::new", "src/search/src/lib.rs:Search::for_end_node", "src/search/src/lib.rs:Search::node", "src/search/src/lib.rs:Search::for_node"]}
{"id": "C76", "title": "When a syntax may be read as a context-free grammar", "statement": "Read a syntax as a plain context-free grammar: any alternative of a select, any number of repetitions, any reading of optional parts, lookahead ignored. Every text that a syntax without lines accepts is generated by that grammar with exactly the delivered data. If in addition the next character always decides which way to go (alternatives begin differently, what follows a repetition, an optional part, a separator or white space does not begin like it), then parsing accepts exactly the generated texts with exactly the generated data and their ranges, no text has two meanings, the same holds after optimisation, and the order of the alternatives does not matter. The condition can be checked by computation; a syntax of JSON values meets it. Without it the converse fails: {\"a\" \"ab\"} does not read ab, and [.r?(\"a\") \"a\"] does not read aa.", "quantifier": "for all syntaxes without lines (soundness), for all valid well-formed syntaxes in which the next character decides (exactness), all texts whose columns fit 32 bits, all tokens already present and all indent settings", "why_tests_cant": "It compares two languages, both infinite, and the data of all their texts, for every grammar of a class; the missing direction concerns texts that are rejected although the grammar generates them, which one finds only by knowing which text to try.", "anchors": ["src/meta_rules/select.rs:Select::parse", "src/meta_rules/sequence.rs:Sequence::parse", "src/meta_rules/repeat.rs:Repeat::parse", "src/meta_rules/separate_by.rs:SeparateBy::parse", "src/meta_rules/optional.rs:Optional::parse", "src/meta_rules/not.rs:Not::parse", "src/lib.rs:parse", "README.md"]}
{"id": "C77", "title": "In clear syntaxes parsing makes linearly many calls", "statement": "If in a well-formed syntax the next character always decides which way to go (the syntax is clear, C76) and no rule is negated, then there is a constant such that parsing makes at most that constant times the length of the text plus one calls of `Rule::parse`, for texts that are accepted and for texts that are rejected alike; rejected ones are where other syntaxes need exponentially many (C58). With a negated rule this fails: `doc = {[\"(\" doc \")\"] !.r!(\"(\")}` is clear and makes quadratically many calls on opened brackets.", "quantifier": "for all external readers that keep their contract, all well-formed clear syntaxes without negated rules; one constant for all texts, token vectors and indent settings", "why_tests_cant": "Timing some texts cannot show that no text of any length, in particular no rejected one, makes the parser go back over what it has read again and again; the bound is about all texts with one constant, for every syntax of a class.", "anchors": ["src/lib.rs:parse", "src/meta_rules/rule.rs:Rule::parse", "src/meta_rules/select.rs:Select::parse", "src/meta_rules/sequence.rs:Sequence::parse", "src/meta_rules/repeat.rs:Repeat::parse", "src/meta_rules/separate_by.rs:SeparateBy::parse", "src/meta_rules/optional.rs:Optional::parse", "src/meta_rules/not.rs:Not::parse", "src/meta_rules/node.rs:Node::parse"]}
{"id": "C78", "title": "Optimisation never makes parsing do more calls", "statement": "Where parsing a text with a syntax returns, parsing it with the optimised syntax returns too and makes at most as many calls of `Rule::parse`, provided that the alternatives behind a table fail at the end of a text (the proviso of C22). So `Syntax::optimize` pays for the extra select it puts behind a table, also for texts that are rejected; it never makes the built-in rules slower; and the optimised form of a clear syntax makes linearly many calls as well (C77). Without the proviso an optimised syntax may make more calls.", "quantifier": "for all external readers that keep their contract, all syntaxes for which optimisation returns and whose tails fail at the end, all texts of characters, token vectors and indent settings", "why_tests_cant": "A benchmark shows a gain on some texts; that no syntax and no text, accepted or rejected, is made slower needs an argument over all call trees, since the optimised form calls a rule that the original does not have.", "anchors": ["src/lib.rs:Syntax::optimize", "src/optimize.rs:optimize_rule", "src/meta_rules/fast_select.rs:FastSelect::parse", "src/meta_rules/select.rs:Select::parse", "src/meta_rules/rule.rs:Rule::parse"]}
{"id": "C79", "title": "Extending a syntax keeps its documents, if the extended one is clear", "statement": "If a syntax is extended (further alternatives anywhere in a select, optional parts put into sequences, a rule made optional, repeated or one of a list, options loosened, fewer characters excluded, definitions added and moved) and in the extended syntax the next character always decides (clear, C76), then every text that was accepted is accepted still, with the same meta data and the same ranges; with the extended syntax optimised as well. The old syntax need not be clear. Without that condition even a further alternative at the very end of a select may lose a document: `[.r?({\"a\" \"c\"}) \"b\"]` reads `ab`, `[.r?({\"a\" \"c\" \"b\"}) \"b\"]` does not.", "quantifier": "for all external readers that keep their contract, all syntaxes without lines, all extensions of them that are valid, well-formed and clear, all texts, token vectors and indent settings", "why_tests_cant": "Old test documents tell nothing about other documents users have written; that no accepted document is lost or changes its data by a change of the grammar is a statement about all texts, for a whole class of changes.", "anchors": ["src/lib.rs:parse", "src/lib.rs:Syntax::optimize", "src/meta_rules/select.rs:Select::parse", "src/meta_rules/sequence.rs:Sequence::parse", "src/meta_rules/repeat.rs:Repeat::parse", "src/meta_rules/separate_by.rs:SeparateBy::parse", "src/meta_rules/optional.rs:Optional::parse", "src/meta_rules/node.rs:Node::parse"]}
{"id": "C80", "title": "Errors are reported where the text before could still be completed", "statement": "If a text is rejected by a syntax in which every rule generates some text, then the text in front of the reported error is no mistake yet: it begins a text that the syntax, read as a context-free grammar (C76), generates; and if the next character always decides (clear, C76), it begins a text that is accepted. For an invalid string the place is where the string begins. So whoever repairs a document may leave everything before the error as it is. This holds with negative lookahead too, whose inner errors are not reported. Where the next character does not decide, the text before the error may be beyond help (`[.r?(\"a\") \"a\"]`).", "quantifier": "for all external readers that keep their contract, all syntaxes without lines whose rules all generate some text, all rejected texts, token vectors and indent settings", "why_tests_cant": "A test shows the range of an error for one text; that never any text is blamed behind the first mistake, for any grammar, and that a completion exists, quantifies over all texts and all continuations.", "anchors": ["src/lib.rs:parse", "src/meta_rules/mod.rs:update", "src/meta_rules/select.rs:Select::parse", "src/meta_rules/sequence.rs:Sequence::parse", "src/meta_rules/repeat.rs:Repeat::parse", "src/meta_rules/separate_by.rs:SeparateBy::parse", "src/meta_rules/optional.rs:Optional::parse", "src/meta_rules/not.rs:Not::parse", "src/meta_rules/text.rs:Text::parse"]}
{"id": "C81", "title": "What an error message demands could stand at its place, and does not stand there", "statement": "If a text is rejected by a syntax without lines in which every rule generates some text, the reported error is truthful in both directions. It is right about the text at its place: an expected token does not stand there, a token that was not expected does, no string or number begins there (or an invalid one does), the text goes on where its end was expected. And what it demands may stand there: the text before the error followed by the expected token (white space, a string literal, a number literal, something) begins a text that the syntax, read as a grammar (C76), generates; where the end was expected the text before is itself generated. In clear syntaxes `generated` is `accepted`. The errors about rules (an empty select, a reference that was not updated, no rules) cannot be reported by such syntaxes.", "quantifier": "for all external readers that keep their contract, all syntaxes without lines whose rules all generate some text and whose fast selects can read something, all rejected texts, token vectors and indent settings", "why_tests_cant": "A test compares one message with one text; that no message ever demands something that could not help, whatever the grammar and text, quantifies over all syntaxes, texts and continuations.", "anchors": ["src/lib.rs:parse", "src/lib.rs:ParseError", "src/meta_rules/mod.rs:update", "src/meta_rules/tag.rs:Tag::parse", "src/meta_rules/whitespace.rs:Whitespace::parse", "src/meta_rules/until_any.rs:UntilAny::parse", "src/meta_rules/until_any_or_whitespace.rs:UntilAnyOrWhitespace::parse", "src/meta_rules/text.rs:Text::parse", "src/meta_rules/number.rs:Number::parse", "src/meta_rules/fast_select.rs:FastSelect::parse", "src/meta_rules/not.rs:Not::parse"]}
{"id": "C82", "title": "From the text of a syntax and the text of a document to the data", "statement": "`load_syntax_data` as a whole does what the two texts say. Let the text of the syntax file have a meaning (C56): strings and nodes, where every node has a rule. Then loading returns tokens if and only if these rules, with their references resolved by name, accept the document with exactly these tokens according to the declarative semantics (C01); neither the debug ids that reading puts into the rules nor the optimisation in between make a difference (where the alternatives behind a jump table fail at the end of the text, C22). Otherwise it reports an error in the text of the document, as deep in it as parsing with the rules as meant gets. If the rules as meant are also well formed and clear (C76), then loading always ends, returns the data that the grammar generates for the document, with its ranges, and aborts exactly for the documents the grammar does not generate. For the programs examples/hello_world.rs and examples/neg_match.rs the documents that are accepted and their data are given outright.", "quantifier": "for all external readers that keep their contract, all texts of a syntax that mean rules with small debug ids, all documents", "why_tests_cant": "A test loads one syntax with one document; that reading, converting, resolving, optimising and parsing compose to the meaning of the text quantifies over all texts of syntaxes and all documents, and over the documents that must be rejected.", "anchors": ["src/lib.rs:load_syntax_data", "src/lib.rs:syntax", "src/lib.rs:Syntax::optimize", "src/bootstrap/convert.rs:convert", "src/lib.rs:parse", "examples/hello_world.rs:main", "examples/neg_match.rs:main"]}
{"id": "C83", "title": "An optimised build does the same where a debug build does not panic", "statement": "In a build without overflow checks (`cargo build --release`), where arithmetic wraps, parsing, conversion, reading a syntax, loading a document and writing JSON give exactly the results they give in a build with overflow checks, unless that one panics; loops that never end do not end there either. With a valid syntax and columns below 2^32 parsing does not differ at all, and with larger columns it still never panics. Conversion of nested data returns however large the numbers of the nodes are, and these numbers bear on debug ids only: the rules are those that any other numbers give. So reading the rules of a syntax returns for every text. Where a build with checks panics in `json::write`, the other one writes at least 2^32 - 1 characters.", "quantifier": "for all external readers, syntaxes, texts, token vectors, indentation settings, meta data, numbers of nodes", "why_tests_cant": "Tests run in one profile, usually the checked one, and on a few inputs; that wrapping arithmetic can nowhere change a result silently quantifies over all inputs and needs the calls related step by step.", "anchors": ["src/meta_rules/lines.rs:Lines::parse", "src/meta_rules/rule.rs:Rule::parse", "src/meta_rules/mod.rs:parse_with_indent", "src/bootstrap/convert.rs:convert", "src/bootstrap/convert.rs:Convert::ignore", "src/json.rs:write", "src/lib.rs:syntax", "src/lib.rs:load_syntax_data"]}
{"id": "C84", "title": "A syntax may be resolved and optimised while it is built", "statement": "A syntax built by calls of Syntax::new, push, update_refs and optimize, in any order, is in the end, after update_refs and optimize, exactly the syntax that one gets by pushing all rules first: resolving references early never makes a difference, even to rules pushed later, and optimising early makes none if all references are resolved at that time. In particular a library of rules can be prepared once and extended. If it is optimised while a reference waits for its rule, the reference may be lost: it is inside of a fast select, which update_refs does not look into.", "quantifier": "for all sequences of calls, rules and names, also with fast selects, unresolved references and names defined twice", "why_tests_cant": "A test builds one syntax in one order; that all orders agree quantifies over all programs that build syntaxes, and depends on the first-byte analysis giving the same answers for rules that are optimised, partly optimised or not.", "anchors": ["src/lib.rs:Syntax::new", "src/lib.rs:Syntax::push", "src/lib.rs:Syntax::optimize", "src/meta_rules/mod.rs:update_refs", "src/meta_rules/rule.rs:Rule::update_refs", "src/optimize.rs:optimize_rule", "src/optimize.rs:unique_byte"]}
{"id": "C85", "title": "The number of an error leads to the rule in the text of the syntax", "statement": "If a document is parsed with a syntax that was read from a text, then an error with a number is caused by the rule of the text that this number leads to: 1000 times the number of its node plus the place of the rule in the node, counted from 1 in the order in which the rules end in the text; and that rule is one that has such errors (a missing tag is written in it, a text in quotes is asked for, the name it refers to is not defined, and so on). With less than 1000 rules per node and different numbers of nodes, #4003 is the third rule of the only node with number 4, as the documentation says. The report of load_syntax_data begins with this number. With 1000 rules in a node the number names another node.", "quantifier": "all texts of the meta language with defined names and all documents, token lists and indent settings", "why_tests_cant": "The number travels from the text through numbering, resolution, optimisation and the choice of the deepest error; a test follows one rule of one syntax.", "anchors": ["src/lib.rs", "src/bootstrap/convert.rs:read_node", "src/parse_error.rs:ParseError", "src/optimize.rs:optimize_rule", "src/meta_rules/mod.rs:parse", "src/parse_error_handler.rs:ParseErrorHandler"]}
{"id": "C86", "title": "A failed parse leaves the beginning of sound data", "statement": "When parse returns an error, what it has added to the vector of tokens is the beginning of sound data: closing the nodes that are still open, and adding nothing else, gives tokens that are well nested, lie one after the other within the text with the nodes around their content, and each of which is made by a rule of the syntax from the text under its range. If the vector held well nested data before, json::write does not panic on it afterwards. The result and what is added do not depend on what the vector held, whether the parse fails or not. What is left need not be what was read in front of the reported error: a later alternative that fails early overwrites it.", "quantifier": "all syntaxes, texts, token vectors and indent settings for which parse returns", "why_tests_cant": "The vector is cut back lazily, only when the next token is stored, so what is left depends on the whole history of failed attempts; a test sees one such history.", "anchors": ["src/tokenizer.rs:read_data", "src/meta_rules/mod.rs:parse", "src/meta_rules/node.rs:parse", "src/meta_rules/select.rs:parse", "src/json.rs:write"]}
{"id": "C87", "title": "Line breaks of Unix and Windows are read alike", "statement": "Two texts that differ only in whether their line breaks are written \\n or \\r\\n are both accepted or both rejected by rules that do not tell the two apart: tokens contain no part of a line break, and what is read up to some characters stops at both parts or at none, or stops at \\n, may be empty and is not stored. The meta data is the same, but for line breaks inside of strings, which are kept as written. Optimised rules do not tell line breaks apart if the given ones do not. The rules of the meta language do not, so a syntax text gives the same rules with both kinds of line breaks if none is inside of a string. Without the conditions this is false: ...\"\\n\"!:\"line\" stores the carriage return, a token \"\\n\" is not found, and the reported error may be another. A byte order mark is not skipped.", "quantifier": "for all syntaxes whose rules do not tell line breaks apart, all pairs of texts that differ in any choice of their line breaks, all indentation settings and earlier contents of the vector", "why_tests_cant": "Every mixture of line breaks in every text, under every rule, including line-based rules with indentation; a test tries a few files on one system.", "anchors": ["src/meta_rules/until_any.rs:parse", "src/meta_rules/whitespace.rs:parse", "src/meta_rules/lines.rs:parse", "src/meta_rules/text.rs:parse", "src/bootstrap/rules.rs:rules", "src/lib.rs:syntax"]}
{"id": "C88", "title": "No character is special but those named by the rules, white space and those of literals", "statement": "When the characters of the tokens in the rules and of the text are replaced by others, different ones by different ones, such that white space stays white space and the characters of line breaks, indentation, numbers and quoted strings stay as they are, then parsing gives the same tokens at the same places, with the replaced characters in strings, and otherwise the same error at the same place, naming the replaced token. The replacement may change how many bytes a character takes. Strings that use escapes keep the value of the escape. The tokens are also the same with the optimised rules, whose tables are made of the first bytes of the new tokens.", "quantifier": "for all replacements of characters as described, all syntaxes that are not optimised (and the optimised ones made of them), all texts, indentation settings and earlier contents of the vector", "why_tests_cant": "It compares two runs for every replacement of characters, of any byte lengths; tests use ASCII and a few other letters.", "anchors": ["src/meta_rules/tag.rs:parse", "src/meta_rules/until_any.rs:parse", "src/meta_rules/until_any_or_whitespace.rs:parse", "src/meta_rules/lines.rs:parse", "src/optimize.rs:unique_byte", "src/lib.rs:parse"]}
{"id": "C89", "title": "The rules of the key-value example read key-value files and nothing else", "statement": "With the rules of examples/key_value.rs, a text is accepted exactly if it is a key-value file: comments from a hash mark to the end of the line, and pairs of a key, an equals sign and a value, with white space around them and a line break between two entries. The data are then exactly the keys and values in order, where a value is a number, true or false, a quoted string, or a word that does not start like one of those. A file has one meaning only, and keys with numbers, truth values and quoted strings of any content, written line by line, are read back as they were written. It is the same with the optimised rules.", "quantifier": "for all texts, indentation settings, earlier contents of the vector and all lists of keys and values", "why_tests_cant": "It determines the language of a set of rules completely, for texts of any length, including that nothing else is accepted; a test parses one file.", "anchors": ["examples/key_value.rs:main", "src/meta_rules/lines.rs:parse", "src/meta_rules/select.rs:parse", "src/meta_rules/sequence.rs:parse", "src/meta_rules/until_any_or_whitespace.rs:parse", "src/lib.rs:syntax"]}
{"id": "C90", "title": "JSON output has one item on each line, indented by depth, and its length follows from the data", "statement": "json::write writes every item of the data on a line of its own: one space for each node that is open around it, the item with its name in quotes, and a comma exactly if another item of the same node follows. No item goes over several lines, whatever the strings contain. The output is at least as long as the spaces and the contents and at most as long as the spaces, twice the contents and 11 characters for each item. Its length is not bounded by any multiple of the length of the parsed text, because the spaces of nested nodes grow with the square of the depth.", "quantifier": "for all data that can be written, also unbalanced data, and all ways numbers are printed", "why_tests_cant": "It fixes the place of every comma, space and line break for data of any shape; a test compares the output for one document, and the growth shows only for a family of texts.", "anchors": ["src/json.rs:write", "src/json.rs:write_string"]}
{"id": "C91", "title": "The rules of the examples hello_world and neg_match read what they say, and nothing else", "statement": "With the rules of examples/hello_world.rs a text is accepted exactly if it is hi, any white space, James or Peter, and an exclamation mark; the data is one true value with the name in small letters, and that is what is printed. With the rules of examples/neg_match.rs a text is accepted exactly if it does not start with hi, and hi_did_not_occured is true; with the double negative of its documentation hi is false instead.", "quantifier": "for all texts, indentation settings and earlier contents of the vector", "why_tests_cant": "It determines the languages of the examples completely, including that nothing else is accepted; the examples run on one text each.", "anchors": ["examples/hello_world.rs:main", "examples/neg_match.rs:main", "src/meta_rules/tag.rs:parse", "src/meta_rules/select.rs:parse", "src/meta_rules/fast_select.rs:parse", "src/json.rs:write"]}
{"id": "C92", "title": "An error message tells the error and its rule, and a report also tells the place", "statement": "The message of an error that a rule is to blame for starts with # and the number of the rule in decimal; no other message does. Different errors, including those with different tokens or numbers, have different messages. If two errors inside one text have the same report, they are the same error at the same offset, as long as their messages are of one line; this holds for all texts, and so for the reports of any two syntaxes that reject one text.", "quantifier": "for all errors, numbers, texts, syntaxes, indentation settings and earlier contents of the vector", "why_tests_cant": "It is about every pair of errors: that no two of them are ever shown alike, with any token and number. Tests compare single messages.", "anchors": ["src/parse_error.rs:fmt", "src/parse_error_handler.rs:write_msg", "src/parse_error_handler.rs:write", "src/meta_rules/mod.rs:parse_errstr"]}
{"id": "C93", "title": "Alternatives that are never chosen may be dropped", "statement": "An alternative of a select is never chosen if an earlier one covers it: the same rule again, a token that is a beginning of its token, a rule that cannot fail, text up to fewer characters, a rule that covers what it starts with, one of several alternatives that covers it, also through references and repetitions. Dropping such alternatives anywhere in a syntax without indented lines changes neither which texts are accepted nor the data that is read; texts that were rejected stay rejected, if perhaps with another error. With indented lines this is false: a second copy of an alternative may be chosen where the first one failed, because a failed alternative in between left another indentation behind.", "quantifier": "for all syntaxes without indented lines, covered alternatives at any depth, texts, earlier contents of the vector and indentation settings", "why_tests_cant": "That an alternative is never chosen is about every text, and every syntax it may stand in; tests only show that it was not chosen for some texts.", "anchors": ["src/meta_rules/select.rs:parse", "src/meta_rules/tag.rs:parse", "src/meta_rules/until_any.rs:parse", "src/meta_rules/lines.rs:parse"]}
{"id": "C94", "title": "Alternatives that begin differently may be put in any order", "statement": "If what one alternative of a select reads and what its neighbour reads begin with characters of two disjoint kinds (a token by its first character, text by a quote, numbers by digits, signs and dots, required white space, text up to other characters, sequences and repetitions by their first rule, selects by all alternatives, also through references), swapping the two changes neither which texts are accepted nor the data. Any number of such swaps may be made, anywhere in a syntax and also with indented lines; rules run as before, with the same indentation left behind. The reported error may change. Alternatives that may begin alike may not be swapped.", "quantifier": "for all syntaxes, any number of swaps of neighbours that begin differently, texts, earlier contents of the vector, indentation settings", "why_tests_cant": "The order of alternatives matters in general, and that it does not matter here is about every text, the unlimited number of orders and all syntaxes that use the rules.", "anchors": ["src/meta_rules/select.rs:parse", "src/meta_rules/sequence.rs:parse", "src/meta_rules/tag.rs:parse", "src/meta_rules/node.rs:parse"]}
{"id": "C95", "title": "An error cannot be repaired behind it", "statement": "Let the tokens of a syntax be at most k characters long, and its negated rules look at most k characters ahead. If parsing a text fails with an error that ends at q, then every text with the same first q+k characters fails with the same error, in the same place: what is written or changed further behind makes no difference. The other way around, an edit of an accepted text that keeps its first m characters causes no error that ends at m-k or in front of it. Numbers need k to be at least three. If the syntax has rules for lines, the texts must also be the same up to something behind q that is no white space. If it has rules for string literals, the literals that begin up to q must be the same. All of these conditions are needed: an unclosed string literal is reported at its beginning, a missing line break in front of the white space, and errors inside negated rules not at all.", "quantifier": "for all syntaxes and how far they look ahead, pairs of texts that are the same up to there, earlier contents of the vector, indentation settings", "why_tests_cant": "There are infinitely many ways to go on behind an error, and a rule that peeks further shows only with the right one.", "anchors": ["src/meta_rules/mod.rs:err_update", "src/meta_rules/mod.rs:parse_with_indent", "src/meta_rules/not.rs:parse", "src/meta_rules/lines.rs:parse", "src/meta_rules/text.rs:parse"]}
{"id": "C96", "title": "Files of repeated items may be joined and cut", "statement": "Let the last rule of a clear syntax (C76) be a repetition. If several files are accepted, then they are accepted one behind the other as one file, and the data of the whole are the data of the files in that order, with ranges moved by what stands in front. Conversely a file that is accepted can be cut into items, none of them empty, each of which the repeated rule generates and each of which is accepted as a file of its own, and the data of the file are those of the items. If the last rule is a list with separators that does not allow a trailing one, two lists may be joined by writing a separator between them. Joining files works in the same way when the syntax has been optimised. Without clearness it is false: two numbers that are joined become one.", "quantifier": "for all clear syntaxes, numbers and contents of files, earlier contents of the vector, indentation settings", "why_tests_cant": "Tests join particular files; whether the end of one file can change how the beginning of the next one is read depends on every pair of characters there.", "anchors": ["src/meta_rules/repeat.rs:parse", "src/meta_rules/separate_by.rs:parse", "src/meta_rules/mod.rs:parse_with_indent"]}
{"id": "C97", "title": "Nodes may be replaced by others of the same rule", "statement": "Let a clear syntax (C76) accept a document, and take any node in its data. The node comes from a reference, the text it covers is generated by the rule referred to, and any other text that this rule generates may be written in its place: the new document is accepted, the data in front stay the same, the data in the node are those of the new text, and what is behind only moves, while nodes around it become longer or shorter by the difference. In particular, if all references with the node's name lead to the same rule, the text of a node of that name may be copied from any accepted document and pasted over a node of that name in another one, and takes its data with it. Pasting works in the same way when the syntax has been optimised. Without clearness it is false: the pasted text may be read together with what follows.", "quantifier": "for all clear syntaxes, accepted documents, nodes in them, replacement texts, earlier contents of the vector, indentation settings", "why_tests_cant": "Tests edit particular documents; that an edit inside one node cannot change how anything outside it is read is a statement about all documents, nodes and replacements.", "anchors": ["src/meta_rules/node.rs:parse", "src/meta_rules/select.rs:parse", "src/meta_rules/mod.rs:parse_with_indent"]}
{"id": "C98", "title": "White space may be changed", "statement": "Let a clear syntax (C76) store all text that is read by rules for strings, numbers and text up to some character, and let its tokens contain no white space. If it accepts a document, then the white space from any place up to the next other character, if that place does not belong to a string, number or bool of the data, may be replaced by any other white space, spaces, tabs and line breaks alike: the new document is accepted and has the same data. Ranges in front stay, ranges behind move, and nodes around become longer or shorter by the difference. This also holds when the syntax has been optimised. It is false without clearness, where other data may be read, and if tokens contain white space.", "quantifier": "for all clear syntaxes that store their text, accepted documents, places of white space in them, replacements, earlier contents of the vector, indentation settings", "why_tests_cant": "Tests compare particular layouts of particular documents; that no layout of white space changes the data is a statement about all of them.", "anchors": ["src/meta_rules/whitespace.rs:parse", "src/meta_rules/sequence.rs:parse", "src/meta_rules/mod.rs:parse_with_indent"]}
{"id": "C99", "title": "Parts of a document may be read on their own", "statement": "Let all references with some property name lead to the same rule of a clear syntax (C76), and add a last rule to the syntax that refers to this rule, so that its texts are documents. If a document is accepted and its data have a node of that name, then the text of the node is accepted by the new syntax and its data are those in the node, with ranges counted from its beginning. If the text of the node is changed to any text that the new syntax accepts, then the whole document is accepted again, and its data are the old ones with those of the part in place of the ones in the node, ranges behind moved and nodes around longer or shorter: it is enough to read the changed part again. Both hold in the same way for optimised syntaxes. Both are false without clearness.", "quantifier": "for all clear syntaxes, names, accepted documents, nodes in them, changed texts, earlier contents of the vector, indentation settings", "why_tests_cant": "Tests reread parts of particular documents; that context never matters is a statement about all surroundings of all nodes.", "anchors": ["src/meta_rules/node.rs:parse", "src/lib.rs:push", "src/meta_rules/mod.rs:parse_with_indent"]}
{"id": "C100", "title": "Items of lists and optional parts may be added and taken out", "statement": "Let the nodes of some name be read only as items of lists, as optional parts or as alternatives in a clear syntax (C76). If a document is accepted and has such a node, then the node may be replaced by any text that may be read in its place: any number of items in a repetition, but not none if one is demanded; one or more items with separators between them in a separated list; nothing, if it is optional; any other alternative of a select. The new document is accepted, and its data are the old ones with the data of the new text in place of the node, ranges behind moved and nodes around longer or shorter. In particular a copy of any node of the same name, from this document or another, may be inserted behind an item of a repetition, or behind an item of a separated list with a separator in front, and an item of a repetition that may be empty, or an optional part, can be taken out. The same holds for optimised syntaxes. It is false without clearness.", "quantifier": "for all clear syntaxes, names, accepted documents, nodes in them, texts of items, separators, earlier contents of the vector, indentation settings", "why_tests_cant": "Tests add items to particular documents; that no item is read together with its new neighbours, or keeps the list from going on, is a statement about all lists and all items.", "anchors": ["src/meta_rules/repeat.rs:parse", "src/meta_rules/separate_by.rs:parse", "src/meta_rules/optional.rs:parse", "src/meta_rules/select.rs:parse", "src/meta_rules/node.rs:parse"]}
{"id": "C101", "title": "Nodes of the same rule may be exchanged", "statement": "Let all references with some property name lead to the same rule of a clear syntax (C76). If a document is accepted and has two nodes of that name that begin at different places, neither inside the other, then the document in which the texts of the two nodes are exchanged is accepted. Its data are the old ones with the contents of the two nodes exchanged and moved to their new places, what lies between moved by the difference of the lengths, and nodes around one of them longer or shorter. The same holds for optimised syntaxes. It is false without clearness.", "quantifier": "for all clear syntaxes, names, accepted documents, pairs of nodes in them, earlier contents of the vector, indentation settings", "why_tests_cant": "Tests reorder the items of particular documents; that no node is read differently in front of other characters is a statement about all surroundings of all nodes.", "anchors": ["src/meta_rules/node.rs:parse", "src/meta_rules/sequence.rs:parse", "src/meta_rules/mod.rs:parse_with_indent"]}
{"id": "C102", "title": "The items of a list may be put in any order", "statement": "Let all references with some property name lead to the same rule of a clear syntax (C76). If a document is accepted and has any number of nodes of that name, none empty and none inside another, then the document in which the texts of these nodes are put in any other order, with everything between them where it was, is accepted. The data of the nodes comes in the new order, with the same places relative to its node; the data in between and behind stays the same but for places, and what begins before the first node or behind the last one keeps its place as well. So lists can be sorted as text. The same holds for optimised syntaxes. It is false without clearness.", "quantifier": "for all clear syntaxes, names, accepted documents, families of nodes in them, orders of these nodes, earlier contents of the vector, indentation settings", "why_tests_cant": "Tests sort particular documents; that each item is read alike at each place, whatever its neighbours are now, is a statement about all orders of all items.", "anchors": ["src/meta_rules/node.rs:parse", "src/meta_rules/separate_by.rs:parse", "src/meta_rules/sequence.rs:parse", "src/meta_rules/mod.rs:parse_with_indent"]}
{"id": "C103", "title": "Values may be changed", "statement": "In a clear syntax (C76), each string, number or bool in the data of an accepted document was read by some rule with this property name from the text under its range, and any other text of this rule may stand there: the changed document is accepted, and its data is the old one with the new value at the place of the old one, what lies behind moved by the difference of the lengths, and nodes around longer or shorter. So, if values of a name are only read as numbers, a number may be changed into any other number, and if they are only read as strings in quotes, into any other string in quotes, empty or with escapes; any text may be stored there if it is written as the JSON writer writes strings. If values of a name are only read as alternatives of one select, any text of any of its alternatives may stand there, with its data: `true` may be changed into `false`, and any value of JSON into any other. The same holds for optimised syntaxes. It is false without clearness: the new value may be taken by another alternative, and the data is lost.", "quantifier": "for all clear syntaxes, accepted documents, values in their data, texts of the same rule, earlier contents of the vector, indentation settings", "why_tests_cant": "Tests change particular values of particular documents; that no new value makes a parser take another way anywhere is a statement about all values and all surroundings.", "anchors": ["src/meta_rules/number.rs:parse", "src/meta_rules/text.rs:parse", "src/meta_rules/tag.rs:parse", "src/meta_rules/until_any.rs:parse", "src/meta_rules/mod.rs:parse_with_indent", "src/json.rs:write_string"]}

{"id": "C01", "title": "A piece is accepted iff all its characters are legal", "statement": "PieceParser.parse(piece) returns a ParsedPiece exactly when every character of the piece is one of the 62 letters and digits or one of the 31 listed symbols; otherwise it raises InvalidCharException, and no other exception is possible.", "quantifier": "every string over every Unicode code point", "why_tests_cant": "Tests try a handful of pieces and one bad character; the claim is about all strings.", "anchors": ["src/os_urlpattern/parse_utils.py:PieceParser.parse", "src/os_urlpattern/parse_utils.py:PieceParser._define", "src/os_urlpattern/definition.py:CHAR_RULE_DICT"]}
{"id": "C02", "title": "A parsed piece is the split of the input into maximal same-character-space runs", "statement": "For an accepted piece the sub-pieces, in order, are the maximal runs of characters of one character space: concatenating the raw runs gives back the input, every run is non-empty, all characters of a run have the run's rule, and neighbouring rules differ. Letter and digit runs are kept verbatim, symbol runs become [rule] or [rule]{n}.", "quantifier": "every accepted piece", "why_tests_cant": "Structure over all lengths and all alternations of character spaces.", "anchors": ["src/os_urlpattern/parse_utils.py:PieceParser.parse", "src/os_urlpattern/parse_utils.py:PieceParser._normalize"]}
{"id": "C03", "title": "Distinct pieces never share a normalized form", "statement": "If two raw pieces are accepted and their ParsedPiece.piece strings are equal (so they compare and hash equal) then the raw pieces are equal. Hence two different URLs are never merged as duplicates by a Maker.", "quantifier": "all pairs of accepted pieces", "why_tests_cant": "Injectivity quantifies over pairs of unbounded strings.", "anchors": ["src/os_urlpattern/parse_utils.py:ParsedPiece.__eq__", "src/os_urlpattern/parse_utils.py:PieceParser.parse"]}
{"id": "C04", "title": "piece_length is the number of characters of the raw piece", "statement": "ParsedPiece.piece_length of an accepted piece equals len(piece). (True when the piece contains no backslash; every maximal run of backslashes adds one to the reported length.)", "quantifier": "every accepted piece", "why_tests_cant": "The scanner walks brackets, escapes and repeat counts; only a proof covers every mix of them.", "anchors": ["src/os_urlpattern/parse_utils.py:ParsedPiece.piece_length"]}
{"id": "C05", "title": "A literal piece used as a pattern matches exactly that piece", "statement": "The normalized piece string, read as the regular expression it is, matches the raw piece and no other string.", "quantifier": "every accepted piece and every candidate string", "why_tests_cant": "Regex semantics over unbounded strings.", "anchors": ["src/os_urlpattern/parse_utils.py:PieceParser._normalize", "src/os_urlpattern/pattern.py:Pattern.match"]}
{"id": "C06", "title": "filter_useless drops exactly the empty non-final entries", "statement": "filter_useless(objs) keeps the last entry and every non-empty entry, in order, and nothing else; for a non-empty list the result is non-empty and the operation is idempotent.", "quantifier": "every list", "why_tests_cant": "List of any length; the filter carries a mutable counter.", "anchors": ["src/os_urlpattern/parse_utils.py:filter_useless"]}
{"id": "C07", "title": "Query strings are split without loss and rejected exactly when '&' is misplaced", "statement": "parse_query_string raises IrregularURLException exactly when the query starts with '&', ends with '&' or contains '&&'. Otherwise keys and values have the same length >= 1 and joining key+value with '&' gives back the query; a key contains '=' at most as its last character; a value is empty unless its key ends with '=' or it is the only entry.", "quantifier": "every string", "why_tests_cant": "Character-level state machine, unbounded input.", "anchors": ["src/os_urlpattern/parse_utils.py:parse_query_string"]}
{"id": "C08", "title": "Query and fragment presence is recovered exactly", "statement": "parse_url(url).fragment is None iff url has no '#', and query is None iff no '?' occurs before the first '#'. When present they are the exact substrings. (Holds for URLs without TAB/CR/LF that do not start with '#'.)", "quantifier": "every URL string", "why_tests_cant": "The code inspects url[-1], url[-2] and a computed index; off-by-one cases are unbounded.", "anchors": ["src/os_urlpattern/parse_utils.py:parse_url"]}
{"id": "C09", "title": "The URL structure describes the pieces", "statement": "When analyze_url(url) succeeds, path_depth >= 1, the number of pieces is url_meta.depth, path pieces contain no '/', '?' or '#', only the last path piece may be empty, query values contain no '&' and no '#'.", "quantifier": "every URL string", "why_tests_cant": "All URLs, all shapes.", "anchors": ["src/os_urlpattern/parse_utils.py:analyze_url", "src/os_urlpattern/parse_utils.py:unpack", "src/os_urlpattern/parse_utils.py:URLMeta.depth"]}
{"id": "C10", "title": "Query key normalisation is unambiguous and rejects illegal characters", "statement": "Two query keys made of legal characters normalise to the same string only if they are equal, and a key with an illegal character is rejected. (The second half is false: normalize writes '[None]' for such characters.)", "quantifier": "all pairs of keys", "why_tests_cant": "Injectivity over unbounded strings; illegal characters are 1.1 million code points.", "anchors": ["src/os_urlpattern/parse_utils.py:normalize", "src/os_urlpattern/parse_utils.py:unpack"]}
{"id": "C11", "title": "A packed URL pattern parses back to the same structure and patterns", "statement": "For the url_meta of any analysed URL and any sequence of per-position patterns of the right length that stay within the characters their position can hold, analyze_url_pattern_string(pack(url_meta, patterns)) returns the same url_meta and the same patterns.", "quantifier": "every URL structure and pattern sequence", "why_tests_cant": "Round trip over unbounded structured data.", "anchors": ["src/os_urlpattern/parse_utils.py:pack", "src/os_urlpattern/parse_utils.py:analyze_url_pattern_string", "src/os_urlpattern/parse_utils.py:parse_url_pattern_string"]}
{"id": "C12", "title": "A specified rule parses back to its rules and number", "statement": "For any non-empty set of rules and any num other than 0 that is negative or at least the number of rules, parse_pattern_unit_string(specify_rule(join(sorted(rules)), num)) returns that set of rules and num (-1 for every negative num). specify_rule(rule, 0) raises ValueError.", "quantifier": "every rule set, every integer", "why_tests_cant": "Sets of 34 rules and all integers.", "anchors": ["src/os_urlpattern/parse_utils.py:specify_rule", "src/os_urlpattern/parse_utils.py:parse_pattern_unit_string"]}
{"id": "C13", "title": "Splitting a pattern string into units loses nothing", "statement": "When parse_pattern_string(s) succeeds, the concatenation of the units is s, every unit is either a run of one letter/digit space or a bracket unit, re-parsing a unit yields that single unit, and neighbouring literal units belong to different spaces (maximal units). It fails only with InvalidPatternException.", "quantifier": "every string", "why_tests_cant": "Index-driven scanner with nested find loops, unbounded input.", "anchors": ["src/os_urlpattern/parse_utils.py:parse_pattern_string"]}
{"id": "C14", "title": "Same fuzzy digest iff same structure and same character spaces", "statement": "Two URLs have the same fuzzy digest iff they have the same path depth, the same normalized query keys in order, the same fragment existence and at every position the same set of character spaces (md5 taken as collision free).", "quantifier": "all pairs of URLs", "why_tests_cant": "Injectivity of a concatenation-based encoding.", "anchors": ["src/os_urlpattern/parse_utils.py:digest", "src/os_urlpattern/parse_utils.py:fuzzy_digest", "src/os_urlpattern/parse_utils.py:pack", "src/os_urlpattern/parser.py:fuzzy_digest"]}
{"id": "C15", "title": "Loading is idempotent and counts distinct URLs", "statement": "After any sequence of loads into a Maker the root count is the number of distinct paths loaded, each node's count is the number of distinct loaded paths through it, and load returns is_new exactly the first time a path is loaded.", "quantifier": "every sequence of loads", "why_tests_cant": "Histories of any length.", "anchors": ["src/os_urlpattern/pattern_maker.py:Maker.load", "src/os_urlpattern/piece_pattern_node.py:build_from_parsed_pieces", "src/os_urlpattern/utils.py:build_tree"]}
{"id": "C16", "title": "Metadata accumulates as a set per URL", "statement": "After any sequence of loads, the meta of a leaf is exactly the set of non-None metas loaded with that path (None if there was none).", "quantifier": "every sequence of loads", "why_tests_cant": "Histories of any length.", "anchors": ["src/os_urlpattern/piece_pattern_node.py:PiecePatternNode.add_meta", "src/os_urlpattern/pattern_maker.py:Maker.load"]}
{"id": "C17", "title": "A rejected load changes nothing", "statement": "If PatternMaker.load or PatternMatcher.load raises, the set of makers/matchers and all their trees are exactly as before.", "quantifier": "every reachable state and every string", "why_tests_cant": "State space unbounded; exception can be raised at many points.", "anchors": ["src/os_urlpattern/pattern_maker.py:PatternMaker.load", "src/os_urlpattern/pattern_matcher.py:PatternMatcher.load"]}
{"id": "C18", "title": "Each maker holds one fuzzy digest", "statement": "After any sequence of loads into a PatternMaker there is exactly one maker per distinct fuzzy digest of the accepted URLs, and all paths stored in a maker have that maker's depth and, position by position, the same character spaces.", "quantifier": "every sequence of loads", "why_tests_cant": "Histories of any length.", "anchors": ["src/os_urlpattern/pattern_maker.py:PatternMaker.load", "src/os_urlpattern/pattern_maker.py:PatternMaker.makers"]}
{"id": "C19", "title": "Clustering terminates without error", "statement": "For min_cluster_num >= 2, PatternMaker.make() after any sequence of loads terminates and raises nothing. (For min_cluster_num <= 1 it raises as soon as one URL is loaded.)", "quantifier": "every load history and every min_cluster_num >= 2", "why_tests_cant": "Termination of an unbounded recursion whose progress depends on the data.", "anchors": ["src/os_urlpattern/pattern_cluster.py:cluster", "src/os_urlpattern/pattern_cluster.py:_can_be_splited", "src/os_urlpattern/pattern_cluster.py:split_by_pattern"]}
{"id": "C20", "title": "Clusters partition the loaded URLs", "statement": "The clusters yielded by make() contain every distinct loaded path exactly once, with its metadata unchanged, and nothing else; the counts of the clusters add up to the count of the maker.", "quantifier": "every load history, every min_cluster_num", "why_tests_cant": "Any data set.", "anchors": ["src/os_urlpattern/pattern_cluster.py:cluster", "src/os_urlpattern/pattern_cluster.py:split_by_pattern", "src/os_urlpattern/pattern_maker.py:Maker.make"]}
{"id": "C21", "title": "All paths of a cluster carry the same pattern", "statement": "In every cluster yielded by make() all root-to-leaf paths have the same sequence of patterns, so the pattern printed from the first path is the pattern of all of them.", "quantifier": "every load history, every cluster", "why_tests_cant": "Any data set.", "anchors": ["src/os_urlpattern/pattern_cluster.py:_can_be_splited", "src/os_urlpattern/formatter.py:PatternFormatter.format"]}
{"id": "C22", "title": "Every URL of a cluster is matched by the cluster's pattern as a regular expression", "statement": "For every loaded URL without backslash, the pattern of the cluster that contains it, read as a regular expression, matches the URL position by position, and the packed pattern matches the path/query/fragment text of the URL. (With backslashes it is false.)", "quantifier": "every load history, every URL in it", "why_tests_cant": "README promise over all data sets.", "anchors": ["src/os_urlpattern/pattern_cluster.py:PiecePatternCluster", "src/os_urlpattern/pattern_cluster.py:LengthPatternCluster", "src/os_urlpattern/pattern_cluster.py:FuzzyPatternCluster", "src/os_urlpattern/pattern_cluster.py:MultiPatternCluster", "src/os_urlpattern/pattern.py:Pattern.match"]}
{"id": "C23", "title": "A cluster pattern can be loaded and has the fuzzy digest of its URLs", "statement": "For backslash-free data, the pattern string printed for a cluster is accepted by parse(), has the url_meta of the maker and the fuzzy digest of the URLs in the cluster. (With a backslash the printed pattern can be rejected.)", "quantifier": "every load history, every cluster", "why_tests_cant": "All data sets; connects two parsers.", "anchors": ["src/os_urlpattern/parser.py:parse", "src/os_urlpattern/parser.py:fuzzy_digest", "src/os_urlpattern/pattern_matcher.py:PatternMatcher.load"]}
{"id": "C24", "title": "A cluster has one URL or at least min_cluster_num URLs", "statement": "Every cluster yielded by make() contains either exactly one path, printed literally, or at least min_cluster_num distinct paths.", "quantifier": "every load history and min_cluster_num >= 2", "why_tests_cant": "Any data set.", "anchors": ["src/os_urlpattern/pattern_cluster.py:confused", "src/os_urlpattern/pattern_cluster.py:MultiPatternCluster._as_cluster", "src/os_urlpattern/pattern_cluster.py:LengthPatternCluster._length_as_cluster"]}
{"id": "C25", "title": "make() can be repeated and interleaved with loads", "statement": "After any mixture of loads and (complete or abandoned) makes, make() yields the clusters of the loads alone, load() returns what it would return without the makes, and the state differs only in patterns left in the trees; so calling make() again gives the same clusters.", "quantifier": "every history of loads and makes", "why_tests_cant": "The first run mutates the tree in place.", "anchors": ["src/os_urlpattern/pattern_maker.py:Maker.make", "src/os_urlpattern/pattern_cluster.py:process"]}
{"id": "C26", "title": "The built-in matcher only returns patterns that match", "statement": "If PatternMatcher.match(url) returns a node for a loaded pattern made of well-formed units, that pattern, read as a regular expression, matches the URL position by position (URLs without backslash; classes in which '/' has no other character beside it: [%/]{2}[/0-9]{2} is returned for %%//5).", "quantifier": "every set of loaded patterns and every URL", "why_tests_cant": "All patterns and URLs.", "anchors": ["src/os_urlpattern/pattern_matcher.py:PatternMatcher.match", "src/os_urlpattern/pattern_matcher.py:PatternMatchNode.match"]}
{"id": "C27", "title": "The built-in matcher finds the cluster's pattern", "statement": "After loading patterns printed by make(), match(url) returns the pattern of the cluster of url exactly if at every position the matcher cuts the piece of the URL where the maker did: the pattern has one unit there; or it is of the form name.ext in the last path position and the URL's extension has at most two runs; or all its units have one character space; or it has only units of letters, digits and '%' and units of one other character, and no two of the former are neighbours. (The claim without this condition is false: '/[0-9a-z]+[\\.]mp4' is not found for the .mp4 URLs it was made from.)", "quantifier": "every load history", "why_tests_cant": "README round trip over all data sets.", "anchors": ["src/os_urlpattern/pattern_matcher.py:MultiPatternViewMatcher.add_match_node", "src/os_urlpattern/pattern_matcher.py:VIEW_MATCHERS", "src/os_urlpattern/parsed_piece_view.py:view_cls_from_pattern"]}
{"id": "C28", "title": "match returns exactly the strictly matching loaded patterns", "statement": "If all accepted patterns are canonical (spelled as the maker spells them) and the URL has no backslash, the result of match(url) is, as a set, the loaded patterns of the URL's structure that take it: every part of the pattern, read as literals and classes, corresponds one to one to the runs (or the name.ext parts, or the blocks of letters, digits and '%') of the piece, with exactly the same character spaces and lengths. Each is returned once, whatever the order of loading; loading more patterns never removes a result. (For non-canonical spellings such as [a-z]{3} and [a-z]{03} the later one hides the earlier one.)", "quantifier": "every sequence of loaded patterns, every URL", "why_tests_cant": "Histories of any length.", "anchors": ["src/os_urlpattern/pattern_matcher.py:Matcher.match", "src/os_urlpattern/pattern_matcher.py:LengthPatternViewMatcher.add_match_node"]}
{"id": "C29", "title": "Loading a pattern twice is idempotent", "statement": "Loading a pattern string that is already loaded returns is_new False, changes no match result, and replaces the bound meta by the last non-None meta.", "quantifier": "every load history", "why_tests_cant": "Histories of any length.", "anchors": ["src/os_urlpattern/pattern_matcher.py:PatternMatcher.load", "src/os_urlpattern/utils.py:build_tree"]}
{"id": "C30", "title": "Matched nodes are ordered by a strict order, total on canonical matches", "statement": "The < of match results is irreflexive and transitive, and two different canonical patterns that strictly match the same URL are always comparable, so the best match is unique.", "quantifier": "all triples of patterns, all URLs", "why_tests_cant": "Order axioms over all patterns.", "anchors": ["src/os_urlpattern/pattern_matcher.py:MatchPattern.__lt__", "src/os_urlpattern/pattern_matcher.py:PatternMatchNode.__lt__"]}
{"id": "C31", "title": "The best match printed is maximal and independent of load order", "statement": "sorted(matched, reverse=True)[0] is greater than every other match, whatever order the patterns were loaded in; if the fully literal pattern of the URL is loaded it is the best match.", "quantifier": "every set of canonical patterns and URL", "why_tests_cant": "All permutations of all result lists.", "anchors": ["src/os_urlpattern/cmdline.py:MatchPatternCommand._match_result", "src/os_urlpattern/pattern_matcher.py:PatternMatchNode.__lt__"]}
{"id": "C32", "title": "Combined tree counts", "statement": "make(combine=True) yields one tree per maker whose root count is the number of distinct URLs and whose count at each pattern path is the number of distinct URLs in the clusters with that pattern.", "quantifier": "every load history", "why_tests_cant": "Any data set.", "anchors": ["src/os_urlpattern/pattern_maker.py:Maker._combine_clusters"]}
{"id": "C33", "title": "dump_tree enumerates every root-to-leaf path once", "statement": "dump_tree(root) yields, at each step, the node list of the next leaf in depth-first order; every leaf is visited exactly once although one mutable list is reused, and when the generator is exhausted that list is back to [root].", "quantifier": "every tree", "why_tests_cant": "All tree shapes.", "anchors": ["src/os_urlpattern/utils.py:dump_tree"]}
{"id": "C34", "title": "Formatters print each cluster and its metadata exactly once", "statement": "CLUSTER yields the pattern once followed by one TAB-prefixed line per (leaf, meta) pair; INLINE yields one pattern TAB meta line per pair; PATTERN yields the pattern once; JSON yields one object with that pattern and the number of distinct URLs.", "quantifier": "every clustered tree", "why_tests_cant": "Any tree.", "anchors": ["src/os_urlpattern/formatter.py:PatternFormatter", "src/os_urlpattern/formatter.py:ClusterFormatter", "src/os_urlpattern/formatter.py:InlineFormatter", "src/os_urlpattern/formatter.py:JsonFormatter"]}
{"id": "C35", "title": "pattern-match writes exactly one line per input line and never aborts", "statement": "For any loaded patterns and any input lines, pattern-match writes for each input line, in order, one output line: result TAB stripped-line, where result is E if the line is not UTF-8 or match() raises, N if nothing matches, otherwise the pattern line of the best result (or those of all results, TAB separated, with -a). A line that is no URL and does not start with '/' gives E; a URL never does if the patterns are canonical (it can otherwise).", "quantifier": "every pattern file and every input file", "why_tests_cant": "All inputs including undecodable bytes.", "anchors": ["src/os_urlpattern/cmdline.py:MatchPatternCommand._match", "src/os_urlpattern/cmdline.py:MatchPatternCommand._match_result"]}
{"id": "C36", "title": "pattern-make accounts for every input line", "statement": "The loader never aborts; ALL = EMPTY + VALID + INVALID, UNIQ <= VALID and UNIQ is the number of distinct URLs held by the makers; blank and invalid lines have no effect on the result.", "quantifier": "every input file", "why_tests_cant": "All inputs.", "anchors": ["src/os_urlpattern/cmdline.py:MakePatternCommand._load"]}
{"id": "C37", "title": "View matchers stay sorted and unique", "statement": "In every node of a match tree the view matchers are in strictly increasing view order after any sequence of loads, and the binary search returns the existing matcher of a view class whenever there is one.", "quantifier": "every sequence of loads", "why_tests_cant": "Loop invariant of a binary search over all histories.", "anchors": ["src/os_urlpattern/pattern_matcher.py:PatternMatchNode._get_matcher"]}
{"id": "C38", "title": "Views only regroup a piece", "statement": "For every parsed piece, each of the views (piece-wise, mixed, last-dot split, fuzzy) consists of consecutive groups of the sub-pieces: concatenating the view's pieces gives back the piece and the rules of a group are the sorted set of the rules of its members. So looking a cluster member up by its joined view pieces never fails.", "quantifier": "every parsed piece", "why_tests_cant": "All alternations of rules.", "anchors": ["src/os_urlpattern/parse_utils.py:mix", "src/os_urlpattern/parsed_piece_view.py:MixedView", "src/os_urlpattern/parsed_piece_view.py:LastDotSplitFuzzyView", "src/os_urlpattern/pattern_cluster.py:ViewPieceBagBucket._transfer"]}
{"id": "C39", "title": "The confusion test behaves at its boundaries", "statement": "A data set below the threshold or with a single part is never confused; a data set whose largest part and remainder both reach the threshold always is; for a two-part set the answer does not depend on which part is called the larger.", "quantifier": "all integers total, max_part, threshold", "why_tests_cant": "All integer triples.", "anchors": ["src/os_urlpattern/pattern_cluster.py:confused"]}
{"id": "C40", "title": "The clusters do not depend on load order", "statement": "With min_cluster_num >= 2, two runs whose loads form the same set (any order, any repetitions, any makes in between, any iteration order of the internal sets) yield the same clusters up to their order: the same structure, members, metadata and count, and the same patterns.", "quantifier": "all permutations of every load history", "why_tests_cant": "Permutations of unbounded histories; set iteration order varies per run.", "anchors": ["src/os_urlpattern/pattern_maker.py:PatternMaker.load", "src/os_urlpattern/pattern_cluster.py:cluster", "src/os_urlpattern/utils.py:Bag"]}
{"id": "C41", "title": "A pattern printed twice belongs to large clusters of one maker", "statement": "Two different clusters never print the same pattern unless they come from one maker and both have at least min_cluster_num URLs (paths without backslash). So no literal pattern is printed twice. (Without the exception it is false: two large clusters of one maker can print one pattern.)", "quantifier": "every load history and every min_cluster_num >= 2", "why_tests_cant": "Any data set.", "anchors": ["src/os_urlpattern/pattern_cluster.py:cluster", "src/os_urlpattern/pattern_cluster.py:split_by_pattern"]}
{"id": "C42", "title": "Progress logging fires once per interval", "statement": "After n calls a LogSpeedAdapter with interval k > 0 has forwarded exactly n // k messages, and the j-th forwarded message reports count j*k.", "quantifier": "all n, k > 0", "why_tests_cant": "All call counts.", "anchors": ["src/os_urlpattern/utils.py:LogSpeedAdapter._log"]}
{"id": "C43", "title": "pattern-match on the output of pattern-make", "statement": "Let min_cluster_num be >= 2 and no piece contain a backslash. If the records that pattern-make -f PATTERN prints are used as the pattern file of pattern-match, then for every accepted URL the answer is never E. With -a it lists, each once, exactly the printed patterns whose parts take the pieces of the URL; without -a it is one of these, and N exactly if there are none. Every listed pattern matches the URL's text as a regular expression. The pattern of the cluster the URL was put into is listed exactly if the matcher cuts each piece where the maker did (findable).", "quantifier": "every input of pattern-make, every URL line given to pattern-match, every sorting function", "why_tests_cant": "Composition of two programs over all inputs.", "anchors": ["src/os_urlpattern/cmdline.py:MakePatternCommand._process", "src/os_urlpattern/cmdline.py:MatchPatternCommand._load", "src/os_urlpattern/cmdline.py:MatchPatternCommand._match"]}
{"id": "C44", "title": "The JSON records are JSON and tell the truth", "statement": "pattern-make -f JSON prints one record per cluster, in printable ASCII. A JSON reader (RFC 8259) reads it as an object with members ptn, the pattern of the cluster, and cnt, the number of its distinct URL paths; the cnt of all records add up to the number of lines that loaded a new URL. json.dumps of any Unicode text reads back as that text. Patterns consist of visible ASCII characters.", "quantifier": "every input of pattern-make and min_cluster_num >= 2", "why_tests_cant": "All inputs; escaping of arbitrary characters.", "anchors": ["src/os_urlpattern/formatter.py:JsonFormatter", "src/os_urlpattern/cmdline.py:MakePatternCommand._process"]}
{"id": "C45", "title": "The pattern language is exactly a grammar", "statement": "PatternMatcher.load(s) succeeds exactly if s starts with '/' and can be written as path, optional [\\?] query, optional # fragment (cut at the first '#', and at the first [\\?] before it), the query has no misplaced '&', and every part is empty or a sequence of units: maximal runs of letters or digits of one space, and classes of character spaces (any order, repetitions allowed, not ending with [\\\\]) with an optional + or {decimal number} that is neither 0 nor smaller than the number of spaces. The spaces and numbers stored for a unit are those written. Otherwise it raises IrregularURLException (the '&'), ValueError (digits that are no decimals, like a superscript two) or InvalidPatternException.", "quantifier": "every string and every state of the matcher", "why_tests_cant": "A language and its parser agree on all strings.", "anchors": ["src/os_urlpattern/parse_utils.py:parse_url_pattern_string", "src/os_urlpattern/parse_utils.py:parse_pattern_string", "src/os_urlpattern/parse_utils.py:parse_pattern_unit_string", "src/os_urlpattern/pattern_matcher.py:PatternMatcher.load"]}
{"id": "C46", "title": "Absolute URLs are cut and accepted exactly", "statement": "For a URL scheme://host path ?query #fragment (no TAB, CR, LF): parse_url finds exactly these parts, the path without the ;parameters of its last segment where the scheme has them. PatternMaker.load accepts it, after any earlier loads, exactly if urllib accepts the host, the path is not empty, the query has no misplaced '&' and all pieces consist of legal characters; otherwise it raises ValueError, IrregularURLException or InvalidCharException, each exactly in its case. Depth, keys (symbols written as classes, '=' as it is), fragment flag and pieces are the ones in the text. Two URLs that differ only in scheme, host and parameters are the same path: the second load returns False. With min_cluster_num >= 2 the pattern of the cluster the URL gets into matches its text path?query#fragment as a regular expression (no backslash, no '//'); the parameters that were cut off are not matched.", "quantifier": "every absolute URL, load history and min_cluster_num", "why_tests_cant": "All URLs and histories.", "anchors": ["src/os_urlpattern/parse_utils.py:parse_url", "src/os_urlpattern/parse_utils.py:analyze_url", "src/os_urlpattern/parse_utils.py:unpack", "src/os_urlpattern/pattern_maker.py:PatternMaker.load"]}
{"id": "C47", "title": "The tree of pattern-make -f ETE is the tree of the patterns", "statement": "With min_cluster_num >= 2, pattern-make -f ETE never raises and draws one tree per fuzzy digest. The names from the root to the leaves of the tree are, each once, the ways of the patterns of the clusters: the i-th name consists of the i-th part of the pattern (with [\\?] or & and the key for parameters, # for the fragment) and the number of distinct URL paths whose pattern starts with the parts up to there; the parts spell the pattern that -f PATTERN prints.", "quantifier": "every input of pattern-make and min_cluster_num >= 2", "why_tests_cant": "All data sets; the counts are sums over unboundedly many clusters.", "anchors": ["src/os_urlpattern/formatter.py:ETEFormatter.format", "src/os_urlpattern/formatter.py:get_ete_tree", "src/os_urlpattern/pattern_maker.py:Maker._combine_clusters", "src/os_urlpattern/utils.py:build_tree"]}
{"id": "C48", "title": "match raises only for odd patterns", "statement": "For every URL that is accepted, match() returns a list and pattern-match does not answer E, if the accepted patterns of the structure of the URL have no empty class and no class with '/' beside other characters; how classes and numbers are spelled, backslashes, and patterns of other structures do not matter. Whatever was loaded, no other exception than IndexError and AttributeError comes out of match() for such a URL. (Both conditions are needed.)", "quantifier": "every load history, URL and sorting function", "why_tests_cant": "All histories of arbitrary, also non-canonical, patterns.", "anchors": ["src/os_urlpattern/pattern_matcher.py:PatternMatcher.match", "src/os_urlpattern/pattern_matcher.py:PatternMatchNode.match", "src/os_urlpattern/pattern_matcher.py:ViewMatcher.match", "src/os_urlpattern/cmdline.py:MatchPatternCommand._match_result"]}
{"id": "C49", "title": "Strings of different fuzzy digests do not influence each other", "statement": "make() yields, digest by digest in the order of the first accepted URL of each, exactly the clusters that a fresh PatternMaker yields when given only the URLs of that digest, in their order and with their meta; so does the printed output of pattern-make in every format with min_cluster_num >= 2. match(s) depends only on the loaded patterns with the digest of s: loading, leaving out or moving others changes nothing.", "quantifier": "every load history, min_cluster_num, input file and matched string", "why_tests_cant": "Independence of arbitrary other inputs.", "anchors": ["src/os_urlpattern/pattern_maker.py:PatternMaker.load", "src/os_urlpattern/pattern_maker.py:PatternMaker.make", "src/os_urlpattern/pattern_matcher.py:PatternMatcher.match", "src/os_urlpattern/cmdline.py:MakePatternCommand._process"]}
{"id": "C50", "title": "A pattern generalises only what differs in its cluster", "statement": "Let min_cluster_num be >= 2. For every cluster of make() and every position the pieces of all its URLs are cut in one of four ways (whole; maximal runs; letters, digits and '%' together; at the last path position name, dots, extension), into the same number of texts, and the pattern is the concatenation of one part per column: the text itself, if all URLs have the same text there; the class of their common character spaces with a number, only if there are two different texts and all have this length; the class with '+', only if two texts differ in length. In particular the pattern at a position is literal exactly if all URLs of the cluster have the same piece there. (Lengths count every run of backslashes once more.)", "quantifier": "every load history, min_cluster_num >= 2, cluster and position", "why_tests_cant": "Minimality of the output over all data sets.", "anchors": ["src/os_urlpattern/pattern_cluster.py:LengthPatternCluster.cluster", "src/os_urlpattern/pattern_cluster.py:FuzzyPatternCluster.cluster", "src/os_urlpattern/pattern_cluster.py:ViewPieceBagBucket._transfer", "src/os_urlpattern/pattern_maker.py:PatternMaker.make"]}
{"id": "C51", "title": "A cluster is clustered alone as it was among others", "statement": "Let min_cluster_num be >= 2. Take one cluster of make() and give a fresh PatternMaker exactly the loads (URL and meta) whose paths are in this cluster, in any order and any number of times. Its make() yields exactly one cluster: the same structure, pieces, metadata, count and pattern.", "quantifier": "every load history, min_cluster_num >= 2 and cluster", "why_tests_cant": "Quantifies over all histories and all clusters; says that the result does not depend on what else was loaded.", "anchors": ["src/os_urlpattern/pattern_maker.py:PatternMaker.make", "src/os_urlpattern/pattern_cluster.py:cluster", "src/os_urlpattern/pattern_cluster.py:split_by_pattern", "src/os_urlpattern/pattern_cluster.py:PatternCluster"]}
{"id": "C52", "title": "What make() does with URLs that differ at one position", "statement": "Let min_cluster_num N be >= 2 and let the accepted URLs have one structure and differ at one position only, where each has a non-empty text of one and the same character space (e.g. digits). Then make() does not raise, every path in every cluster has its other positions literal, and at that position: the text itself, if there are fewer than N different texts; otherwise the class with '+', if there are at least N different lengths, or at least N texts inside and outside of the largest class of equally long texts, or the two sides differ in number by less than N-1; otherwise the class with the length of the text, if at least N texts have that length; otherwise the text itself. Different clusters have different patterns, and every URL is in a cluster.", "quantifier": "every load history of this shape, min_cluster_num >= 2, every number of other positions", "why_tests_cant": "The decision depends on numbers of texts and lengths, which are unbounded.", "anchors": ["src/os_urlpattern/pattern_cluster.py:LengthPatternCluster.cluster", "src/os_urlpattern/pattern_cluster.py:PiecePatternCluster.cluster", "src/os_urlpattern/pattern_cluster.py:FuzzyPatternCluster.cluster", "src/os_urlpattern/pattern_cluster.py:confused", "src/os_urlpattern/pattern_maker.py:PatternMaker.make"]}
{"id": "C53", "title": "Metadata is carried, never looked at", "statement": "For two load histories with the same URLs in the same order and arbitrary, different metadata, PatternMaker.load returns or raises the same at each step, and make() yields the same clusters in the same order (structure, pieces, counts, patterns) up to the metadata on the leaves, or raises the same. Likewise for PatternMatcher: load answers the same and match() finds the same patterns in the same order, or raises the same.", "quantifier": "every pair of load histories with the same URLs, every min_cluster_num, every matched string", "why_tests_cant": "Non-interference over all histories.", "anchors": ["src/os_urlpattern/pattern_maker.py:PatternMaker.load", "src/os_urlpattern/pattern_maker.py:PatternMaker.make", "src/os_urlpattern/pattern_matcher.py:PatternMatcher.match", "src/os_urlpattern/utils.py:build_tree"]}
{"id": "C54", "title": "The formats of pattern-make print the same blocks; every accepted URL is in exactly one", "statement": "Let min_cluster_num be >= 2. For every input there is one list of blocks (structure, patterns, URLs) such that pattern-make does not raise in any of the formats PATTERN, CLUSTER, INLINE and JSON and its output is, block by block: the pattern; the pattern and a TAB-indented line per URL; a line pattern TAB URL per URL; a JSON object with the pattern and the number of distinct URL paths of the block. The URLs of the blocks are exactly the accepted lines (stripped), each in one block and once; URLs of one path are in one block; the patterns of the block match the pieces of each of its URLs (no backslash) and have its structure.", "quantifier": "every input of pattern-make and min_cluster_num >= 2", "why_tests_cant": "Quantifies over all inputs and relates four runs.", "anchors": ["src/os_urlpattern/cmdline.py:MakePatternCommand._process", "src/os_urlpattern/formatter.py:ClusterFormatter.format", "src/os_urlpattern/formatter.py:InlineFormatter.format", "src/os_urlpattern/formatter.py:JsonFormatter.format", "src/os_urlpattern/formatter.py:PatternFormatter.format"]}
{"id": "C55", "title": "A suspended make() is not disturbed by loads and other generators", "statement": "Let min_cluster_num be >= 2, and let loads, calls of make() and calls of next() on the generators returned by make() follow each other in any order. Every next() returns a cluster or raises StopIteration or RuntimeError. A generator goes through the digests in the order of their first URLs; for each it yields, in some order, exactly the clusters of the URLs of that digest that had been loaded when it got there, whatever is loaded and whichever other generators run between its results; it ends with RuntimeError exactly if a URL of a new digest has been loaded since its first next(). A cluster that is the only one of its digest is the tree that further loads are added to: later it has all URLs of the digest loaded until then; other clusters never change. Without loads after make() the generator yields what an undisturbed make() yields.", "quantifier": "every interleaving of loads, makes and nexts; every order in which sets are gone through", "why_tests_cant": "Interleavings of several suspended generators with loads.", "anchors": ["src/os_urlpattern/pattern_maker.py:PatternMaker.make", "src/os_urlpattern/pattern_maker.py:Maker._cluster", "src/os_urlpattern/pattern_cluster.py:cluster", "src/os_urlpattern/pattern_cluster.py:split_by_pattern", "src/os_urlpattern/pattern_maker.py:PatternMaker.load"]}
{"id": "C56", "title": "No letter and no digit is special", "statement": "Let f permute the lower case letters, the upper case letters and the digits among themselves and leave all other characters alone. Load a second PatternMaker with the URLs renamed by f (path, query and fragment; schemes and hosts as one likes) and the same metadata: load answers the same, and make() yields the same clusters in the same order, every piece, pattern and query key renamed outside of brackets and braces, every count and all metadata the same at every node, or raises the same. Renaming keeps different texts different.", "quantifier": "every permutation, every load history, every min_cluster_num", "why_tests_cant": "Equivariance over all permutations and all histories; says that the code compares letters and digits only for equality and by space.", "anchors": ["src/os_urlpattern/pattern_maker.py:PatternMaker.load", "src/os_urlpattern/pattern_maker.py:PatternMaker.make", "src/os_urlpattern/parse_utils.py:ParsedPiece", "src/os_urlpattern/parse_utils.py:normalize", "src/os_urlpattern/pattern_cluster.py:cluster"]}
{"id": "C57", "title": "Pattern.match decides the language of the pattern string", "statement": "Let P be a string of letters, digits, plain symbols and classes with optional '+' or '{n}' (n < 4294967295, from where re.compile raises). However often and with whatever texts match() of one Pattern(P) is called, it does not raise and answers True for a text exactly if the text, or the text without one final line feed, is in the language of P. The pattern of a single piece accepts that piece only (up to the line feed). With min_cluster_num >= 2 the patterns of each cluster of make() accept, position by position, the pieces of its URLs without backslash, and the packed pattern accepts the URL behind the host.", "quantifier": "every pattern string of this syntax, every sequence of texts; every load history and cluster", "why_tests_cant": "re backtracks over texts of any length; the answers are quantified over all patterns and texts.", "anchors": ["src/os_urlpattern/pattern.py:Pattern.match", "src/os_urlpattern/pattern_maker.py:PatternMaker.make", "src/os_urlpattern/parse_utils.py:ParsedPiece"]}
{"id": "C58", "title": "No letter and no digit is special to PatternMatcher", "statement": "Let f permute the lower case letters, the upper case letters and the digits among themselves. Load a second PatternMatcher with the patterns renamed by f outside of brackets and braces, with the same metadata: load answers the same or rejects both, and match() of a URL renamed by f finds the renamed patterns of the results for the URL, in the same order, with the same metadata, and comparing with '<' in the same way, or raises the same. Renaming the text of an accepted pattern whose query keys have no open bracket or brace renames its structure and its parts.", "quantifier": "every permutation, every load history, every URL", "why_tests_cant": "Equivariance over all permutations, pattern sets and URLs: the view matchers look at letters and digits only for equality and by space.", "anchors": ["src/os_urlpattern/pattern_matcher.py:PatternMatcher.load", "src/os_urlpattern/pattern_matcher.py:PatternMatcher.match", "src/os_urlpattern/parse_utils.py:analyze_url_pattern_string"]}
{"id": "C59", "title": "How texts that are not absolute URLs are read", "statement": "Every string has exactly one reading [scheme:][//host]path[?query][#fragment], after leading blanks and all TAB, LF and CR are dropped. What load and match make of the query and the fragment is a function of them and of the end of the string as given: a fragment or query that is not empty counts, an empty fragment counts if the string ends with '#', and an empty query counts, whether there is one or not, if the string has a '?' where it would have to be, counted from the end; without TAB, LF and CR this is the query and the fragment themselves. If the string is not '' or '#' and does not begin with '/', PatternMaker.load and PatternMatcher.match in any state raise ValueError for a bad host and IrregularURLException if the path (without its parameters) has no '/'; otherwise they do what they do for x://host/...?query#fragment, the path from its first '/' on and the query and the fragment just said: what comes before it, such as a host without '//' or a port, is ignored. Strings that begin with '/' are never loaded by PatternMaker, '' and '#' raise IndexError and other strings that begin with '#' IrregularURLException. A LF at the end is not always ignored: 'http://h/a?' with a LF counts as 'http://h/a', and 'http://h/a#?xy' with two LF as 'http://h/a?#?xy'.", "quantifier": "every string, every state", "why_tests_cant": "Any text can come in on a line; the readings are quantified over all strings.", "anchors": ["src/os_urlpattern/parse_utils.py:parse_url", "src/os_urlpattern/parse_utils.py:analyze_url", "src/os_urlpattern/parse_utils.py:unpack", "src/os_urlpattern/pattern_maker.py:PatternMaker.load", "src/os_urlpattern/pattern_matcher.py:PatternMatcher.match"]}
{"id": "C60", "title": "match() of a pattern", "statement": "A string that begins with '/' is read as a pattern by PatternMatcher.match: it raises what load() raises for it. If load() would accept it, look at the accepted loaded patterns of the same structure (depth, keys, fragment) whose parts name the same character spaces as its own, part by part. If each part of each of them is one class with '+', match() returns exactly these patterns, each once and with its last meta, none if there are none; otherwise it raises AttributeError, even if the string is itself a loaded pattern. pattern-match answers E, N or these patterns accordingly.", "quantifier": "every load history and every string that begins with '/'", "why_tests_cant": "Quantifies over all sets of patterns and all strings.", "anchors": ["src/os_urlpattern/pattern_matcher.py:PatternMatcher.match", "src/os_urlpattern/pattern_matcher.py:PatternMatchNode.match", "src/os_urlpattern/pattern_matcher.py:FuzzyPatternViewMatcher.match", "src/os_urlpattern/pattern_matcher.py:PatternMatcher.load"]}
{"id": "C61", "title": "A suspended make(combine=True) gives combined trees of what is loaded", "statement": "Let min_cluster_num be >= 2, and let loads, calls of make() with either value of combine and calls of next() follow each other in any order. Every next() on a generator of make(combine=True) returns a (url_meta, tree) pair or raises StopIteration or RuntimeError. A tree belongs to one digest: its count at any sequence of patterns is the number of the distinct URLs of this digest, among those loaded when next() is called, whose cluster has a pattern that begins with this sequence; siblings are different, no count is zero, and all paths are as long as the structure says. If nothing is loaded after make(), the generator never raises RuntimeError and gives one tree for each digest, in the order of the first URLs, whatever the other generators do.", "quantifier": "every interleaving of loads, makes and nexts; every order in which sets are gone through", "why_tests_cant": "Interleavings of several suspended generators of both kinds with loads.", "anchors": ["src/os_urlpattern/pattern_maker.py:PatternMaker.make", "src/os_urlpattern/pattern_maker.py:Maker._combine_clusters", "src/os_urlpattern/pattern_cluster.py:cluster", "src/os_urlpattern/utils.py:build_tree", "src/os_urlpattern/pattern_maker.py:PatternMaker.load"]}
{"id": "C62", "title": "Few URLs stay as they are", "statement": "Let min_cluster_num be N >= 2. If fewer than N distinct URLs of a digest have been loaded, make() yields each of them as a cluster of its own, and the pattern of each piece is the text of the piece. It is not so that URLs of one cluster stay together when more URLs are loaded, that a position whose pattern is not a text has N different texts in its cluster, or that the other clusters are the same when the URLs of one of them have not been loaded: for each there is a witness.", "quantifier": "every load history, every min_cluster_num >= 2", "why_tests_cant": "Quantifies over all sets of fewer than N URLs of any digest; the refuted claims look right on small samples.", "anchors": ["src/os_urlpattern/pattern_maker.py:PatternMaker.make", "src/os_urlpattern/pattern_cluster.py:cluster", "src/os_urlpattern/pattern_maker.py:PatternMaker.load"]}
{"id": "C63", "title": "The programs as filters of files", "statement": "Whatever the bytes of the input files, with min_cluster_num >= 2 pattern-make in each of the formats PATTERN, CLUSTER, INLINE, JSON and NULL prints all records to a UTF-8 standard output without raising; no record has a line feed, so the lines of the output, decoded, are the records. pattern-match writes exactly one line for each line of its input files: the answer, TAB, the stripped line. Lines end at line feeds and at the ends of the files. The output of pattern-make -f PATTERN, given to pattern-match as a pattern file, has the printed patterns as its lines, and what is written for each line is what C43 says. The output of -f CLUSTER does as well as that of -f PATTERN in any list of pattern files, that of -f JSON can be left out without effect, and that of -f INLINE does not do.", "quantifier": "every list of input and pattern files (any bytes)", "why_tests_cant": "Quantifies over the bytes of all files; needs that no decoded URL and no pattern has a line feed and that every record can be encoded.", "anchors": ["src/os_urlpattern/cmdline.py:MakePatternCommand._load", "src/os_urlpattern/cmdline.py:MakePatternCommand._process", "src/os_urlpattern/cmdline.py:MatchPatternCommand._load", "src/os_urlpattern/cmdline.py:MatchPatternCommand._match", "src/os_urlpattern/formatter.py:ClusterFormatter"]}
{"id": "C64", "title": "What backslashes do to patterns", "statement": "Let min_cluster_num be >= 2. The pieces of each URL of a cluster and the parts of its pattern can be cut side by side into texts and units: a unit is one run of a character space as it stands, or the character spaces of its text with the length that ParsedPiece reports or with '+'. A unit matches its text unless it has a number and the text has a backslash (a run of backslashes counts one more than it is long); if no unit has this fault, the packed pattern matches the URL. PatternMatcher.load, in any state, accepts the packed pattern exactly if no unit has a backslash in front of its closing bracket, which is so for literal backslashes and for classes whose last space is the backslash; it then reads the parts of the pattern back, under the digest of the URLs. Otherwise it raises InvalidPatternException and changes nothing. The pattern of a URL that stays alone and has a backslash is always rejected.", "quantifier": "every load history, every cluster, every URL with any number of backslashes", "why_tests_cant": "C22 and C23 leave backslashes out; the classes in which a backslash is harmless depend on the order of the spaces in the class, for patterns of any length.", "anchors": ["src/os_urlpattern/pattern_maker.py:PatternMaker.make", "src/os_urlpattern/pattern_matcher.py:PatternMatcher.load", "src/os_urlpattern/parse_utils.py:parse_pattern_string", "src/os_urlpattern/parse_utils.py:parse_pattern_unit_string", "src/os_urlpattern/parse_utils.py:ParsedPiece"]}
{"id": "C65", "title": "The nodes that load() returns are live objects", "statement": "Let loads of any strings and reads of level on any nodes follow each other in any order on one PatternMaker. Two accepted loads return the same node object exactly if their URLs have the same structure and pieces, and is_new says that no earlier load returned this object. At any later time, the parents of a returned node lead to the root of its maker and name the pieces of the URL; the node has no children, count 1, no pattern, and as meta the set of all metas loaded with this URL so far. level is the number of nodes above, whenever it is read for the first time or again. Every node ever created is below the root of one maker and counts the distinct URLs below it, at least one. What can be read from the objects is the tree that the other properties speak about.", "quantifier": "every sequence of loads and reads of level", "why_tests_cant": "Mutable objects with parent references and a cached level: quantifies over all histories and over all times at which a node is looked at.", "anchors": ["src/os_urlpattern/utils.py:TreeNode", "src/os_urlpattern/utils.py:build_tree", "src/os_urlpattern/piece_pattern_node.py:PiecePatternNode.incr_count", "src/os_urlpattern/piece_pattern_node.py:build_from_parsed_pieces", "src/os_urlpattern/pattern_maker.py:PatternMaker.load"]}
{"id": "C66", "title": "What the programs log", "statement": "pattern-make logs, for the lines it reads in turn, progress at each 5000th line and exactly one record for each invalid line, with the stripped bytes: an error, for an IndexError, if the line is a lone '#', in every other case a warning, for one of the four expected exceptions. The report after the last line is empty if there is none; else it has ALL, then EMPTY, UNIQ with VALID, and INVALID, each only if there is such a line and in the order in which the first lines of these kinds occur, with the numbers of lines and, at UNIQ, of distinct URLs. With min_cluster_num >= 2 one record for each cluster follows, with its number of URLs; these sum up to UNIQ (with the format ETE: one for each digest). pattern-match logs the number and names of the pattern files, progress at each 1000th line, one warning for each line that begins with '/' and cannot be loaded, and a report of ALL, UNKNOW, VALID and INVALID made like the other; then progress at each 5000th line and one record for each line that it answers with E, a warning for one of the expected exceptions and an error for any other, and none for other lines.", "quantifier": "every list of input and pattern files", "why_tests_cant": "Quantifies over all inputs; that the catch-all except clause of pattern-make is reached by one text only needs a case analysis of the whole parser.", "anchors": ["src/os_urlpattern/cmdline.py:MakePatternCommand._load", "src/os_urlpattern/cmdline.py:MakePatternCommand._process", "src/os_urlpattern/cmdline.py:MatchPatternCommand._load", "src/os_urlpattern/cmdline.py:MatchPatternCommand._match_result", "src/os_urlpattern/utils.py:pretty_counter", "src/os_urlpattern/utils.py:LogSpeedAdapter._log"]}
{"id": "C67", "title": "URLs that differ in one run of characters", "statement": "Let min_cluster_num be N >= 2, and let the accepted URLs have one structure and the same pieces but for one piece, which is A, a text of one character space, and B, where A and B are the same for all and end and begin with characters of other spaces (they may be empty); for example /p/item10.html, /p/item22.html. Then the result of make() is known. Cut the piece into its runs if there are at most three, or if taking letters, digits and '%' together leaves at least two parts and saves fewer than N; otherwise cut it into the parts with letters, digits and '%' taken together. The block is the part with the text that changes, but the whole piece if it is the last one of the path, cut into name, dots and extension, and the text is in the extension. Everything outside of the block is literal. The block is literal if there are fewer than N texts; else the class of its character spaces with '+' if no length of the texts stands out; else this class with the length of the block for the texts whose length is shared by N texts, and literal for the others. URLs of one pattern form one cluster. The block is unique and the same for all texts.", "quantifier": "every load history of this form, every A, B, r, every set of texts, every min_cluster_num >= 2", "why_tests_cant": "Quantifies over all sets of texts of any number and lengths; the run goes through the clusters of parts, and what they leave goes through up to four further clusters that must not touch it.", "anchors": ["src/os_urlpattern/pattern_maker.py:PatternMaker.make", "src/os_urlpattern/pattern_cluster.py:PiecePatternCluster", "src/os_urlpattern/pattern_cluster.py:MultiPatternCluster", "src/os_urlpattern/pattern_cluster.py:LengthPatternCluster", "src/os_urlpattern/pattern_cluster.py:cluster"]}
{"id": "C68", "title": "make() and the objects it hands over", "statement": "Let loads of any strings, reads of level on any nodes and list(make()) follow each other in any order on one PatternMaker with min_cluster_num >= 2. Each maker hands over either its own root object, as its only result, or at least two roots that did not exist before; no root is handed over twice. The results are the trees of the other properties when they are handed over and when make() has ended. A result that is a new object stays as it was for ever, whatever is loaded or made later; one that is the maker's own root changes with later loads (example). From the root of a maker or of such a result every node that is reached through children has parents that lead back by the same pieces, and its level is their number; so these trees share no nodes. The nodes that load() returned are never replaced: at any later time their parents lead to the root of the maker and name the pieces of the URL, they have no children, count 1 and all metas loaded with the URL; two loads return the same object exactly if their URLs have the same structure and pieces, and is_new says that no earlier load returned it, also with make() in between.", "quantifier": "every sequence of loads, reads of level and calls of make(), every min_cluster_num >= 2", "why_tests_cant": "make() writes into the nodes it was given, builds new trees with the same pieces and metas: that none of this reaches an object it should not needs an invariant over the whole heap through all nested clusterings.", "anchors": ["src/os_urlpattern/pattern_maker.py:PatternMaker.make", "src/os_urlpattern/pattern_cluster.py:cluster", "src/os_urlpattern/pattern_cluster.py:split_by_pattern", "src/os_urlpattern/pattern_cluster.py:PatternCluster", "src/os_urlpattern/piece_pattern_node.py:build_from_piece_pattern_nodes", "src/os_urlpattern/utils.py:TreeNode"]}
{"id": "C69", "title": "What the configuration file of pattern-make does", "statement": "Without -c pattern-make works with min_cluster_num 3. The file given with -c is read before any input. It is cut into lines at LF, CR LF and CR; lines of white space and lines that begin with '#' or ';' are passed over; [name] begins a section; name = value and name: value set an option, and lines that are indented further continue its value. If it is not UTF-8, or another line occurs, or an option stands before the first header, or a section or (names compared in lower case) an option of a section comes twice, then the program raises the same exception for every input and prints nothing. Otherwise min_cluster_num is the value that section make gives it, else 3; section DEFAULT does not reach it, though %(name)s in the value can name options of section make, the default itself and options of DEFAULT, at most ten deep. If the text with its references replaced is an integer as int() reads it (white space, a sign, single underscores, digits of any script, at most 4300 of them), the program does what it does with this number: from 2 on it never raises, up to 1 it raises as soon as a URL is accepted. If it is none, the program raises if and only if a URL of the input is accepted, always the same exception, and prints nothing in either case. A file says at most one number, and every integer of at most 4300 digits is said by the file of the two lines [make] and min_cluster_num = N.", "quantifier": "every configuration file (any bytes), every input, every output format", "why_tests_cant": "Quantifies over all files and inputs; a grammar of the file that does not mention the reader is shown to be accepted in full and nothing else.", "anchors": ["src/os_urlpattern/cmdline.py:MakePatternCommand.process_args", "src/os_urlpattern/cmdline.py:_execute", "src/os_urlpattern/config/__init__.py:get_default_config", "src/os_urlpattern/pattern_cluster.py:PatternCluster", "src/os_urlpattern/cmdline.py:MakePatternCommand.run"]}
{"id": "C70", "title": "Suspended generators and the objects they hand over", "statement": "Let loads of any strings, reads of level on any nodes, calls of make() and make(combine=True) and calls of next() on any of the generators so returned follow each other in any order on one PatternMaker with min_cluster_num >= 2. Every next() returns: a result, StopIteration, or RuntimeError, and nothing else. The results are the trees of C55 and C61 at the moment they are handed over, and a result is the root object of a maker exactly when C55 says so, never with combine=True. A result with combine=True combines the clusters of the URLs of one fuzzy digest that had been loaded when next() was called. A result that is not the root of a maker stays as it was for ever, whatever is loaded, made or resumed later, and is handed over once only. The trees below the roots of makers and results share no node; the parents of each node lead back to its root by the same pieces and level counts them. A generator during whose life nothing is loaded raises no RuntimeError, whatever other generators do, and its results, when it has stopped, read as the clusters of the URLs loaded before, with combine=True as one combined tree per digest. Generators leave nothing but patterns in the trees of the makers. load() has the outcome it has without generators; the node it returned is never replaced: its parents name the pieces of the URL, it is a leaf with count 1 and all metas loaded with this URL; two loads return the same object exactly if structure and pieces agree.", "quantifier": "every sequence of loads, reads of level, make() with combine=False or True and next(), every min_cluster_num >= 2", "why_tests_cant": "Several suspended generators share mutable nodes with each other and with later loads: needs an invariant over the heap that holds between any two steps of any of them.", "anchors": ["src/os_urlpattern/pattern_maker.py:PatternMaker.make", "src/os_urlpattern/pattern_maker.py:PatternMaker.load", "src/os_urlpattern/pattern_cluster.py:cluster", "src/os_urlpattern/pattern_cluster.py:split_by_pattern", "src/os_urlpattern/piece_pattern_node.py:build_from_piece_pattern_nodes", "src/os_urlpattern/utils.py:TreeNode"]}
{"id": "C71", "title": "make(combine=True) and the objects it hands over", "statement": "Let loads of any strings, reads of level on any nodes, list(make()) and list(make(combine=True)) follow each other in any order on one PatternMaker with min_cluster_num >= 2. make(combine=True) hands over one tree per fuzzy digest, in the order of the first load, with the url_meta of this digest, and raises nothing. The tree combines the clusters that make() would give for the URLs with this digest loaded so far, whatever was made in between: its paths have one node per piece, children of one node have different patterns, no count is zero, and the count at the end of any sequence of patterns is the number of the URLs whose cluster's pattern begins with it. Its root did not exist before and is handed over once only. It stays as it was for ever, whatever is loaded or made later. Every node reached in it has parents that lead back to the root by the same patterns, its level is their number, and it is in the tree of no maker. To the trees of the makers make(combine=True) does what make() does.", "quantifier": "every sequence of loads, reads of level and calls of make() and make(combine=True), every min_cluster_num >= 2", "why_tests_cant": "The combined tree is built while the clusters are still being produced by a generator that writes to the maker's nodes; that neither reaches the other, now or later, needs an invariant over the whole heap.", "anchors": ["src/os_urlpattern/pattern_maker.py:PatternMaker.make", "src/os_urlpattern/pattern_maker.py:Maker._combine_clusters", "src/os_urlpattern/utils.py:build_tree", "src/os_urlpattern/utils.py:dump_tree", "src/os_urlpattern/utils.py:pick", "src/os_urlpattern/utils.py:TreeNode"]}
{"id": "C72", "title": "Generators that are closed before their end", "statement": "Let the uses of C70 and calls of close() on any of the generators follow each other in any order on one PatternMaker. If the calls of close() are left out, and the calls of next() on generators that had been closed, then the others have the same outcomes and the same objects are there in the end, so all of C70 holds of what was done. A closed generator raises StopIteration ever after. What is done fixes all outcomes and objects. With min_cluster_num >= 2 every next() and close() returns, and next() raises nothing but StopIteration and RuntimeError; a generator that is not closed and during whose life nothing is loaded raises no RuntimeError and, once it has stopped, has given the clusters of the URLs loaded before (with combine=True one combined tree per digest), whatever other generators were closed in the middle of their work.", "quantifier": "every sequence of loads, reads of level, make(), next() and close(), every min_cluster_num >= 2", "why_tests_cant": "A generator may be closed at any point of its work, having written to nodes that others share: quantifies over all points and all that is done before and after.", "anchors": ["src/os_urlpattern/pattern_maker.py:PatternMaker.make", "src/os_urlpattern/pattern_maker.py:Maker.make", "src/os_urlpattern/pattern_cluster.py:cluster"]}

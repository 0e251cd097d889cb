# Formal model of os-urlpattern in Rocq (Coq 8.16.1)

`rocq/theories` holds a model of the package, function by function, and the proofs of
the properties in `properties.jsonl`.  `MANIFEST.json` names the theorems of each
property.  `seeded/LOG.jsonl` records how the theorems fared against wrong programs.

Build: `cd rocq && coq_makefile -f _CoqProject -o Makefile && make -j4` (about 4 min).

## Layout

Model files contain definitions only, each with the lines of /repo it follows.
Statement files hold the vocabulary of the theorems.  `Prop*.v` files hold the theorems,
each with `Print Assumptions` and a concrete case.  Everything else is proof.

| model file | models |
|---|---|
| `PyStr.v` | Python `str`, sorted sets, dicts, exceptions as values |
| `Defs.v` | `definition.py` |
| `UrlLib.v` | `urllib.parse.urlparse` of CPython 3.11 |
| `ParseUtils.v` | `parse_utils.py` |
| `Views.v` | `parsed_piece_view.py` 10-138 |
| `Trees.v` | `utils.py` 70-173 (TreeNode, build_tree, dump_tree), `piece_pattern_node.py` |
| `Heap.v` | the same code and `PatternMaker.load` once more, with nodes as objects: references, assignments, parent pointers, cached `level` (`utils.py` 70-148, `piece_pattern_node.py`, `pattern_maker.py` 29-47) |
| `HCluster.v` | `pattern_cluster.py`, `build_from_piece_pattern_nodes` and `PatternMaker.make` once more, on the nodes of `Heap.v`: what is read from which node, what is written into it, which nodes are new; a generator is a program with the body of the loop over it as a parameter |
| `Conf.v` | `config/__init__.py`, `default_config.cfg`, `-c` of `cmdline.py`, `getint` in `pattern_cluster.py`; of CPython 3.11's `configparser`: `_read` line by line, `_join_multiline_values`, `get` with `BasicInterpolation`, `getint`; `int(str)`. Compared with CPython's `configparser` on 100000 random files: no difference, exceptions included |
| `Cluster.v` | `pattern_cluster.py`, sets gone through in insertion order |
| `AnyOrder.v` | `pattern_cluster.py` again, as a relation: sets gone through in any order; histories of loads and makes |
| `Patterns.v` | `pattern.py`, `view_cls_from_pattern`, `MatchPattern` |
| `Matcher.v` | `parser.py`, `pattern_matcher.py` |
| `Maker.v` | `pattern_maker.py` |
| `Lazy.v` | `make()` as a generator that can be suspended between results, with `combine=False` and `combine=True` |
| `HCombine.v` | `Maker._combine_clusters`, `make(combine=True)` run to its end, on the nodes of `Heap.v`; a `TreeNode` holding a `Pattern` is a node whose value spells the pattern string |
| `HLazy.v` | the generators of `Lazy.v` on the nodes of `Heap.v`: what is left to a suspended generator are root objects |
| `HClose.v` | `close()` of these generators |
| `Format.v` | `formatter.py` |
| `Ete.v` | `ETEFormatter`, `get_ete_tree`, `pattern-make -f ETE` |
| `Re.v` | `Pattern.match` and the part of CPython's `re` it needs |
| `Cmd.v` | `cmdline.py` 112-239, `LogSpeedAdapter` |
| `Files.v` | the lines of the input files (`chain.from_iterable`), the bytes that `print()` and `write()` put out |
| `Log.v` | what the commands hand to their loggers: counters, progress, complaints, reports (`cmdline.py` 112-158, 180-244, `utils.py` 13-24, 198-208) |
| `TestModel.v` | expectations of /repo/tests computed by the model (tests, not proofs) |

| statement file | vocabulary of |
|---|---|
| `Spec.v` | legal characters, character spaces, runs, the language of a regular expression; does not mention the model |
| `Observe.v` | what a user sees of a tree and of a history of loads |
| `ViewSpec.v` | C38 |
| `MatchSpec.v`, `OwnSpec.v`, `OrderSpec.v` | C26-C31 |
| `CmdSpec.v` | C35, C43 |
| `JsonSpec.v` | C44: a JSON reader |
| `GrammarSpec.v` | C45: the grammar of patterns |
| `UrlSpec.v` | C46: absolute URLs |
| `EteSpec.v` | C47: the tree of `-f ETE` |
| `LocalSpec.v` | C49: the loads of one fuzzy digest |
| `TightSpec.v` | C50: ways of cutting a piece; the part of a pattern that a set of texts calls for |
| `StableSpec.v` | C51: the loads of one cluster |
| `OneSpec.v` | C52: URLs that differ at one position |
| `MetaSpec.v` | C53: results without metadata |
| `OutSpec.v` | C54: the blocks of the output |
| `LazySpec.v` | C55, C61: the results of suspended generators |
| `FileSpec.v` | C63: the lines of a file |
| `BackSpec.v` | C64: pieces and patterns cut side by side, units left open |
| `HeapSpec.v` | C65: sequences of loads and reads of level, chains of parents, the tree found at a reference |
| `LogSpec.v` | C66: kinds of lines in the order of their first occurrence, the reports, the records of a loop over lines |
| `RunSpec.v` | C67: URLs that differ in one run of characters |
| `HMakeSpec.v` | C68, C71: sequences of loads, reads of level, list(make()) and list(make(combine=True)) on objects and on trees; following children; results that are new objects |
| `ConfSpec.v` | C69: lines of a text, what a line can be, the layout of a file as blocks, what it sets, references, numerals |
| `HLazySpec.v` | C70: sequences of loads, reads of level, make() and next() on objects; roots, results, outcomes |
| `HCloseSpec.v` | C72: the same with `close()`; what is left of the uses without it |
| `RenameSpec.v` | C56, C58: renaming of letters and digits |
| `ReSpec.v` | C57: questions put to one `Pattern` object |
| `RefSpec.v` | C59: URLs without scheme or host, with blanks |
| `SlashSpec.v` | C60: patterns that name the same character spaces |
| `AnySpec.v` | C25, C40 |

## Trusted base

* Coq's kernel (8.16.1), including `vm_compute`, which the concrete cases use.
* `Print Assumptions` answers "Closed under the global context" for every theorem in
  every `Prop*.v`: no axiom, of the project or of the standard library, is used.
* That the model follows the code.  It was written by reading /repo; nothing was run.
  `TestModel.v` computes the expectations of the repository's own tests in the model.
* The statements, i.e. the `*Spec.v`, `Observe.v` and `Prop*.v` files.

`vcheck` lists axioms of `ssrunder`; they come with the standard library modules that
are loaded and no theorem depends on them.

## Modelling decisions

* A character is a code point (`N`), a string a list of code points, a line of input a
  list of bytes.  Non-ASCII input is in the model.
* Exceptions are values: `res A := Ok a | Err e`, one `e` for each class the code can
  raise.  Functions that may raise after a mutation return the state and the result.
* Mutation is modelled by returning the new value.  The piece tree is a rose tree; a
  node is identified by its path.  `dump_tree`, a generator that reuses one list, is
  modelled with that list (`dump_gen`, C33).
* Dicts are association lists in insertion order.
* Sets: sets of rules and of metadata are sorted lists (the code sorts rules before
  use; metadata are printed in an arbitrary order, the model prints them sorted).  Two
  kinds of sets are iterated during clustering (the nodes of a PieceBag, the cached
  buckets of FuzzyPatternCluster); `AnyOrder.v` allows every order, C40 shows that the
  order does not matter.
* `md5` and `hash` are the identity on the digested string, i.e. collision free.
* `Spec.regex_matches` gives the language of the expressions the
  package emits: literals, classes of ranges and escaped characters, `{n}`, `+`.
* `urlparse`: the check of the network location (brackets, NFKC) is an arbitrary
  function `nv`, so every theorem holds for whatever it accepts.
* `sorted(result, reverse=True)` is a parameter `srt`, assumed to return a sorted
  permutation for orders that allow it (`OrderSpec.sorts`; `MatchBest.isort` is one).
* Where match() would put None among the nodes (inner node without meta) the model raises
  AttributeError at once; C48 says when this cannot happen.
* The recursion of `cluster` has fuel; C19 shows that it suffices.

## Not modelled

* `argparse`, logging beyond the calls of the loggers (C42, C66), the configuration
  outside of `Conf.v` (`min_cluster_num` is the parameter `mcn` there), the encoding in which
  `print` writes (`Files.v` takes UTF-8), how `ete3` draws a tree of names (`get_ascii`), `psutil`, `format_byte`, `get_classes`,
  `cached_property`, `with_metaclass`, Python 2.
* Of `re` only the part described in `Re.v` (no groups, alternatives, escaped letters,
  `{m,n}`, lazy and possessive quantifiers).  `Pattern.match` is the only user of `re`;
  nothing in the package calls it.
* Python's recursion limit, its limit on digits of `int()` (but `Conf.v` has it), memory, time.
* That the file named with `-c` is missing; the encoding of the locale (UTF-8 is taken);
  `str.lower` beyond ASCII is a parameter `lower` that never gives the empty string for
  another one.
* `make()` as a suspended generator anywhere but in `Lazy.v` (C55, C61) and `HLazy.v`
  (C70); elsewhere it runs to its end.
  `throw()` of a generator; `close()` anywhere but in `HClose.v` (C72).  A generator that
  is dropped is one that is not used again: no `try`, `with` or `finally` is around a `yield`.

## Properties: model and proof method

| id | model | method |
|---|---|---|
| C01-C05 | `parse_piece`, `piece_length` | induction on the string |
| C06 | `filter_useless` | induction on the list |
| C07 | `parse_query_string` | invariant of the character loop |
| C08-C09 | `parse_url`, `unpack` | cases on the first `#` and `?` |
| C10 | `normalize` | decomposition into runs |
| C11, C14 | `pack`, `parse_url_pattern_string`, digests | round trip; injectivity |
| C12-C13 | `specify_rule`, `parse_pattern_unit_string`, `parse_pattern_string` | prefix code, loop invariant |
| C15-C18 | `Trees`, `Maker`, `Matcher` | invariant over the history of loads |
| C19-C24, C32, C41 | `Cluster` | one generic argument for `cluster()` (`GenCluster`: it terminates, partitions, leaves one pattern), instantiated for the trees of views (`FlatCluster`) and of URLs (`OuterCluster`); what each cluster class finishes and passes on (`PieceStage`, `MultiStage`, `LengthStage`, `OuterLevel`) |
| C25, C40 | `AnyOrder` | every stage maps inputs that agree up to order to outputs that agree up to order (`Any*.v`) |
| C26-C31, C37 | `Matcher` | the match tree as a function of the loaded patterns; what a level accepts; digests and keys |
| C33 | `dump_tree` | the generator as a trace over its list |
| C34-C36, C42 | `Format`, `Cmd` | induction over lines |
| C43 | `Cmd` (both commands) | the printed patterns are canonical, so C26-C28 and C35 apply (`Pipe.v`) |
| C44 | `Format.json_str`, `fmt_json` | the reader undoes the writer |
| C45 | `parse_url_pattern_string`, `parse_pattern_string`, `parse_pattern_unit_string` | parser and grammar agree (`Grammar.v`) |
| C46 | `parse_url`, `analyze_url`, `load` | `urlparse` on absolute URLs step by step (`UrlExact.v`); C45 for path and query |
| C47 | `Ete`, `cbuild` | the combined tree is a tree of distinct paths with positive counts (`EteProofs.v`); counts by C32 |
| C48 | `Matcher` | every level answers with keys of children; keys of readable patterns fix the number of units (`MatchTotal.v`) |
| C49 | `Maker`, `Matcher`, `Cmd` | each load changes only the entry of its digest (`Local.v`) |
| C50 | `Cluster`, `Maker` | the stages keep, per level, the set of texts behind a pattern; entries with one pattern come from one part (`FlatCluster.v`, `OuterLevel.v`, `TightProofs.v`) |
| C51 | `Cluster`, `Maker` | a tree that make() yields is one that process() left unsplit, so the loop ends at once on it (`loop_fix`); the tree of the same loads has the same entries, and C40's invariance does the rest (`Stable.v`) |
| C52 | `Cluster`, `Maker` | each stage on a level of one text and on a level of texts of one space (`OneLevel.v`), the walk through the levels (`OneTree.v`), the loop splits once and then stops (`OneCluster.v`) |
| C53 | `Cluster`, `Maker`, `Matcher` | every function commutes with dropping the metadata (`Erase.v`, `EraseMatch.v`) |
| C54 | `Cmd`, `Format` | C34 per cluster, C53 for the formats that load no metadata, C20 for the partition (`OutProofs.v`) |
| C55 | `Lazy` | each generator has a fuel and a list of roots whose clusters, in every state with the same loads, complete what it has given (`LazyProofs.v`); C25's invariance for roots that other generators have clustered |
| C56 | `Cluster`, `Maker`, `ParseUtils` | parametricity: the clusterer maps trees related by any relation that respects equality, length and rules of pieces to related trees (`Para.v`); renaming is one (`Rename.v`) |
| C57 | `Re`, `Maker` | the tokens and items `re` reads are those of `Spec.rparse`; greedy backtracking finds a match if there is one |
| C58 | `Matcher`, `Patterns` | the match trees of renamed patterns are related node by node (`RenameUnits.v`, `RenameMatch.v`, `RenameState.v`); reading a renamed text (`RenamePat.v`) |
| C59 | `UrlLib`, `ParseUtils` | every text has one reading; urlparse computes it; the rest as for C46 (`UrlRef.v`); what is at the end of the text, by index (`UrlEnd.v`) |
| C60 | `Matcher`, `Cmd` | the levels of the match tree when the objects have no pieces: every view but FuzzyView raises (`MatchSlash.v`); classes and spaces by the grammar of C45 (`SlashTop.v`) |
| C61 | `Lazy` | as C55; the clusters that `_combine_clusters` goes through are a permutation of those of one run, and the counts of a combined tree are sums over them (`LazyProofs.v`) |
| C62 | `make` | from C24 (a cluster of two or more has at least min_cluster_num URLs) and the counts of C32 (`FewProofs.v`); witnesses found by search with the extracted model |
| C63 | `Files` | lines as the unique cutting of the bytes; UTF-8 keeps line feeds apart; records from C54, C44, answers from C35 (`FileProofs.v`) |
| C64 | `Maker`, `Matcher` | units from `PatUnits.v`; the rules of classes are a prefix code, so the reading of a pattern and its units agree up to the first one left open (`BackProofs.v`) |
| C65 | `Heap` | trees annotated with the references of their nodes; every operation touches only the nodes of one tree (`HeapProofs.v`, `HeapLoad.v`), makers own disjoint sets of nodes (`HeapState.v`), then the facts of C15, C16 and C18 (`HeapTop.v`) |
| C66 | `Log` | a counter is the list of the labels counted so far; its keys are their first occurrences (`LogProofs.v`); which exceptions the parser can raise, by the reading of C59 |
| C67 | `Cluster`, `Maker` | C52 for any level that is processed in a known way (`FanCluster.v`), used twice: for the tree of the parts of a piece (`RunFlat.v`, `RunStage.v`) and for the tree of pieces (`RunCluster.v`). A view shows the changing run at one place (`RunView.v`), and the piece is sent where its cut says (`RunCut.v`). What the cluster of parts leaves is too little for the next ones (`RunOuter.v`), or it finds nothing, and then the others find nothing either (`RunInert.v`) and the lengths decide (`RunFam.v`) |
| C68 | `Heap`, `HCluster` | refinement: each part of a level (`HcBag.v`, `HcLevel.v`, `HcStage.v`, `HcLen.v`, `HcRun.v`), the processors (`HcProc.v`), split_by_pattern and the recursion (`HcLoop.v`, `HcInst.v`) do on annotated trees what `Cluster.v` does on trees, touch only the nodes of their tree and otherwise allocate; a loop over a generator keeps any invariant of its body about older nodes (`yields` in `HcBase.v`). Makers and new results own disjoint sets of nodes (`HcMake.v`, `HcState.v`), then the facts of C15, C16 and C18 through the trees without patterns (`HcTop.v`) |
| C69 | `Conf` | each line test and `int()` against its description (`ConfText.v`); the reader does on the lines of a layout what a fold over its blocks does, and accepts only lines that have a layout (`ConfRead.v`); the fold fails exactly on improper blocks, what it leaves is `known`, interpolation is `expands` (`ConfTop.v`); the program through `loads` (`ConfMain.v`) |
| C70 | `Heap`, `HCluster`, `HLazy` | the invariant of C68 with three kinds of owners of nodes: makers, results (and trees that were split), suspended generators; each step of a generator keeps it and is a step of `Lazy.v` or two (`HLazyProofs.v`); with combine=True a step is the one of C71 for one maker (`HLazyComb.v`); next() ends since the first root left to do is split into roots that need less fuel; then as C68, and C55 through the refinement (`HLazyTop.v`) |
| C71 | `Heap`, `HCluster`, `HCombine` | `build_tree` on the new root is an instance of the refinement of C65, seen through `ptree` from combined trees to trees (`HcCombine.v`); the new root is carried as an invariant of the body through the clustering (`yields`), then joins the trees that share no node (`HcState.v`, `HcTop.v`); the counts through C61's `combined` (`HcCombTop.v`) |
| C72 | `HLazy`, `HClose` | a run with close() and the run without it have the same objects and the same generators but for the closed ones, which are finished (`HCloseProofs.v`); then C70 |
| C38 | `Views` | induction on the runs |
| C39 | `confused` | integer arithmetic |

## What the proofs found in the code

Each is a theorem `*_refuted`, a concrete case, or a hypothesis of a theorem.

* Backslashes.  A backslash is legal, its class is `[\\]`; `piece_length` counts it twice
  (C04), so `/[\\a-z]{4}` is made for `/a\b` and does not match it (C22);
  `parse_pattern_string` takes the closing bracket of `[\\]` as escaped and rejects the
  pattern (C23).
* `normalize` turns illegal characters of query keys into `[None]` (C10).
* An URL that begins with `#`, or has TAB, CR or LF in it, is split differently by
  `parse_url` than by RFC 3986 (C08).
* `urlparse` takes `;parameters` off the last segment and `parse_url` drops them:
  `http://h/a;x` and `http://h/a;y` count as one URL, with the pattern `/a` (C46).
* `min_cluster_num` below 2 makes `make()` raise (C19).
* `MixedView` patterns are looked up with the views of `MultiPatternViewMatcher`: the
  pattern made for a URL is often not found by the matcher, e.g. `/ab12[\-][0-9a-z]{4}`
  or `/[0-9a-z]+[\.]mp4` (C27; `findable` says exactly when it is).
* Two loaded spellings of one class (`[a-z]{3}`, `[a-z]{03}`): the later hides the earlier
  (C28).  `/[0-9a-z]+` and `/[a-z0-9]+` are incomparable, the best match depends on the
  order of loading (C30).
* The key of a pattern joins its units with `/`, which is also a rule:
  `/[\?]k=[%/]{2}[/0-9]{2}` is found for `?k=%%//5` (C26, C28).
* `[]+` is accepted; then match() can raise IndexError (C35, C48).  Patterns with `/` in
  a class beside other characters can make match() return a list with None in it (C48).
* Spellings hide whole patterns: after `/[a-z]{3}/[0-9]{2}` and `/[a-z]{03}/[0-9]{3}`
  nothing is found for `/abc/12` (C48).
* `match()` on a string that starts with `/` raises AttributeError, unless all loaded
  patterns of its digest consist of classes with '+', which are then all returned (C60).
* `[a-z]{²}` passes `isdigit()` and makes `int()` raise ValueError (C13).
* Different clusters can have the same pattern (C41).
* `list(dump_tree(root))` holds the same list many times (C33).
* The only cluster of a digest is the tree of its maker, not a copy: it grows when URLs
  are loaded after it was yielded (C55).  A URL of a new digest, loaded while a `make()`
  generator is suspended, makes the generator raise RuntimeError (C55).
* Without "//" a host is not recognised: in `www.example.com/a` it is ignored as the part
  of the path before the first '/', in `example.com:80/a` it is the scheme and the port is
  ignored (C59).
* `parse_url` looks at the last characters of the text it is given, urllib drops TAB, LF
  and CR first: `http://h/a?` followed by LF is read as `http://h/a`, and
  `http://h/a#?xy` followed by two LF gets an empty query (C59).
* More URLs can take a cluster apart: `/abc`, `/abd`, `/abcd`, `/abce` are `/[a-z]+` at
  min_cluster_num 3, but with `/abe` and `/abf` the four short ones become `/[a-z]{3}` and
  the other two stay literal (C62).
* pattern-match takes the output of pattern-make -f CLUSTER (the default) as well as that
  of -f PATTERN, but every line of -f INLINE as a pattern that ends with TAB and the URL
  (C63).
* A backslash in a class is harmless to loading if a later space (`_`, `a-z`, `{`...) is in the
  class: `/[\\a-z]+` is accepted, `/[A-Z\\]+` is not; with a number neither matches its URLs,
  since ParsedPiece counts a run of backslashes one too long (C64).
* The `except Exception` clause of pattern-make's loop, which logs an error instead of a
  warning, is reached by one text only, a line that is a lone `#` (C66).
* A number at the end of a last piece behind a dot is not seen as a number: `/p/a.10`, `/p/a.22`,
  `/p/a.35` become `/p/[0-9\.a-z]{4}`, while `/p/a-10`... become `/p/a[\-][0-9]{2}` (C67).
* With min_cluster_num 4 the nine URLs `/p/itemN.html` with three N of each of the lengths 1, 2
  and 3 stay literal; with the default 3, or with two of each length, they do not (C67).
* A maker that yields one result yields its own tree, not a copy: with three URLs `/a/b`,
  `/a/c`, `/a/d` loaded in turn and make() after each, the root handed over first is the
  one handed over last, and it has changed in between (C68, `C68_case_own`).  Results of
  makers that yield several are new objects and never change (C68).
* Trees of make(combine=True), unlike those of make(), are always new objects: they never change,
  also if the maker yields one cluster only (C71, `C71_case_trees`).
* A wrong value of `min_cluster_num` in the configuration file is only noticed when the
  first URL is accepted; without one pattern-make ends as if nothing were wrong (C69,
  `C69_case_bad`).  Numbers up to 1 are read without complaint and then make the run fail
  (`C69_small`).  Section DEFAULT cannot set `min_cluster_num`, since the package's own
  file sets it in section make (`C69_unset`).  A byte order mark makes the file unreadable.
* A generator of make() that was suspended between two parts of a maker goes on with the
  parts as they were when the maker was taken: URLs loaded since, even of this maker, are
  not in them, while a second generator sees them (C70, `C70_case`).
* Not modelled, read off the code: `ClusterProcessor.process` and `dump_tree` recurse once
  per level, so a URL of around a thousand pieces can be loaded but makes make() exceed
  Python's recursion limit.

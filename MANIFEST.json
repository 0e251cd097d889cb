{
 "claims": [
  {
   "property": "C01",
   "status": "proved",
   "theorems": [
    "C01_piece_accepted_iff_legal"
   ],
   "note": ""
  },
  {
   "property": "C02",
   "status": "proved",
   "theorems": [
    "C02_piece_is_maximal_runs",
    "C02_maximal_runs_unique"
   ],
   "note": ""
  },
  {
   "property": "C03",
   "status": "proved",
   "theorems": [
    "C03_piece_injective"
   ],
   "note": ""
  },
  {
   "property": "C04",
   "status": "proved",
   "theorems": [
    "C04_piece_length_exact",
    "C04_piece_length_no_backslash",
    "C04_piece_length_refuted"
   ],
   "note": "The unqualified claim is refuted (backslash); the qualified one and the exact value are proved."
  },
  {
   "property": "C05",
   "status": "proved",
   "theorems": [
    "C05_literal_piece_matches_itself_only"
   ],
   "note": ""
  },
  {
   "property": "C06",
   "status": "proved",
   "theorems": [
    "C06_filter_useless",
    "C06_filter_useless_empty",
    "C06_filter_useless_idempotent"
   ],
   "note": ""
  },
  {
   "property": "C07",
   "status": "proved",
   "theorems": [
    "C07_query_rejected_iff",
    "C07_query_lossless",
    "C07_no_query"
   ],
   "note": ""
  },
  {
   "property": "C08",
   "status": "proved",
   "theorems": [
    "C08_query_fragment_exact",
    "C08_query_fragment_refuted"
   ],
   "note": "Holds for non-empty URLs without TAB/CR/LF that do not start with '#'; refuted otherwise."
  },
  {
   "property": "C09",
   "status": "proved",
   "theorems": [
    "C09_structure_describes_pieces"
   ],
   "note": ""
  },
  {
   "property": "C10",
   "status": "proved",
   "theorems": [
    "C10_key_injective",
    "C10_key_regex",
    "C10_illegal_key_rejected_refuted"
   ],
   "note": "First half proved; second half refuted: illegal characters become [None]."
  },
  {
   "property": "C11",
   "status": "proved",
   "theorems": [
    "C11_packed_pattern_parses_back",
    "C11_packed_pattern_unambiguous"
   ],
   "note": ""
  },
  {
   "property": "C12",
   "status": "proved",
   "theorems": [
    "C12_specify_rule_parses_back",
    "C12_specify_rule_zero"
   ],
   "note": ""
  },
  {
   "property": "C13",
   "status": "proved",
   "theorems": [
    "C13_units_lossless",
    "C13_only_invalid_pattern"
   ],
   "note": ""
  },
  {
   "property": "C14",
   "status": "proved",
   "theorems": [
    "C14_same_digest_iff"
   ],
   "note": "md5 modelled as injective."
  },
  {
   "property": "C15",
   "status": "proved",
   "theorems": [
    "C15_counts_distinct_urls",
    "C15_root_count",
    "C15_is_new_first_time"
   ],
   "note": ""
  },
  {
   "property": "C16",
   "status": "proved",
   "theorems": [
    "C16_meta_is_the_set_loaded"
   ],
   "note": ""
  },
  {
   "property": "C17",
   "status": "proved",
   "theorems": [
    "C17_rejected_load_maker",
    "C17_rejected_load_matcher"
   ],
   "note": ""
  },
  {
   "property": "C18",
   "status": "proved",
   "theorems": [
    "C18_one_maker_per_digest",
    "C18_maker_paths"
   ],
   "note": ""
  },
  {
   "property": "C19",
   "status": "proved",
   "theorems": [
    "C19_make_terminates",
    "C19_make_small_raises"
   ],
   "note": ""
  },
  {
   "property": "C20",
   "status": "proved",
   "theorems": [
    "C20_clusters_partition_loads",
    "C20_clusters_keep_metadata",
    "C20_cluster_counts"
   ],
   "note": "For min_cluster_num >= 2; below that make() raises (C19)."
  },
  {
   "property": "C21",
   "status": "proved",
   "theorems": [
    "C21_one_pattern_per_cluster"
   ],
   "note": ""
  },
  {
   "property": "C22",
   "status": "proved",
   "theorems": [
    "C22_patterns_match_pieces",
    "C22_packed_pattern_matches_url",
    "C22_backslash_refuted"
   ],
   "note": "Proved for URLs whose pieces have no backslash (and, for the packed form, a query of legal characters, see C10); refuted with a backslash. re is modelled by regex_matches."
  },
  {
   "property": "C23",
   "status": "proved",
   "theorems": [
    "C23_cluster_pattern_parses",
    "C23_backslash_refuted"
   ],
   "note": "Proved for paths without backslash; refuted with one."
  },
  {
   "property": "C24",
   "status": "proved",
   "theorems": [
    "C24_cluster_sizes"
   ],
   "note": ""
  },
  {
   "property": "C25",
   "status": "proved",
   "theorems": [
    "C25_make_after_makes",
    "C25_load_after_makes",
    "C25_runs_exist",
    "C25_make_is_a_run"
   ],
   "note": "What a suspended generator yields after further loads is the subject of C55."
  },
  {
   "property": "C26",
   "status": "proved",
   "theorems": [
    "C26_matches_are_sound",
    "C26_slash_refuted",
    "C26_backslash_refuted"
   ],
   "note": "Proved for URLs without backslash and positions whose classes do not mix '/' with other characters; refuted without these conditions."
  },
  {
   "property": "C27",
   "status": "proved",
   "theorems": [
    "C27_own_pattern_found_iff",
    "C27_own_pattern_refuted"
   ],
   "note": "The unqualified claim is refuted (e.g. '/[0-9a-z]+[\\.]mp4' never matches the .mp4 URLs it was made from); C27_own_pattern_found_iff says exactly when the pattern is found, for URLs without backslash."
  },
  {
   "property": "C28",
   "status": "proved",
   "theorems": [
    "C28_taken_pieces_match",
    "C28_matches_are_exact",
    "C28_order_irrelevant",
    "C28_more_loads_keep_results",
    "C28_spelling_refuted"
   ],
   "note": "Proved for URLs without backslash when every accepted pattern is canonical (MatchSpec.canonical: sorted classes, plain numbers, and no class that mixes '/' with other characters in a part of several units); refuted for other spellings."
  },
  {
   "property": "C29",
   "status": "proved",
   "theorems": [
    "C29_is_new",
    "C29_same_results",
    "C29_last_meta"
   ],
   "note": ""
  },
  {
   "property": "C30",
   "status": "proved",
   "theorems": [
    "C30_irreflexive",
    "C30_transitive",
    "C30_total",
    "C30_total_refuted"
   ],
   "note": "Totality is proved for URLs without backslash when every accepted pattern is canonical; refuted for other spellings ('/[0-9a-z]+' and '/[a-z0-9]+' are incomparable)."
  },
  {
   "property": "C31",
   "status": "proved",
   "theorems": [
    "C31_first_is_greatest",
    "C31_greatest_exists",
    "C31_greatest_unique",
    "C31_load_order_irrelevant",
    "C31_literal_is_best"
   ],
   "note": "For URLs without backslash and canonical patterns.  CPython's sorted() is a parameter that is assumed to sort (OrderSpec.sorts); isort in MatchBest.v is one such function."
  },
  {
   "property": "C32",
   "status": "proved",
   "theorems": [
    "C32_combined_counts"
   ],
   "note": ""
  },
  {
   "property": "C33",
   "status": "proved",
   "theorems": [
    "C33_dump_tree_visits_every_leaf"
   ],
   "note": ""
  },
  {
   "property": "C34",
   "status": "proved",
   "theorems": [
    "C34_formatters",
    "C34_make_never_raises"
   ],
   "note": ""
  },
  {
   "property": "C35",
   "status": "proved",
   "theorems": [
    "C35_one_record_per_line",
    "C35_one_line_each",
    "C35_rejected_line",
    "C35_accepted_line",
    "C35_best_pattern",
    "C35_utf8_inverse",
    "C35_accepted_line_refuted"
   ],
   "note": "That a URL never gives E is proved for canonical patterns and URLs without backslash and refuted without these conditions (match() raises IndexError).  sorted() is a parameter assumed to sort."
  },
  {
   "property": "C36",
   "status": "proved",
   "theorems": [
    "C36_make_counts",
    "C36_strip"
   ],
   "note": ""
  },
  {
   "property": "C37",
   "status": "proved",
   "theorems": [
    "C37_matchers_sorted",
    "C37_search_finds",
    "C37_search_inserts"
   ],
   "note": ""
  },
  {
   "property": "C38",
   "status": "proved",
   "theorems": [
    "C38_views_regroup",
    "C38_views_join_to_piece"
   ],
   "note": ""
  },
  {
   "property": "C39",
   "status": "proved",
   "theorems": [
    "C39_confused_boundaries",
    "C39_confused_iff"
   ],
   "note": ""
  },
  {
   "property": "C40",
   "status": "proved",
   "theorems": [
    "C40_same_clusters",
    "C40_same_patterns",
    "C40_load_order"
   ],
   "note": "Sets of pattern_cluster.py are gone through in any order (AnyOrder.v is a relation)."
  },
  {
   "property": "C41",
   "status": "proved",
   "theorems": [
    "C41_repeated_pattern_only_large",
    "C41_distinct_patterns_refuted"
   ],
   "note": "the statement without the exception is refuted by C41_distinct_patterns_refuted"
  },
  {
   "property": "C42",
   "status": "proved",
   "theorems": [
    "C42_logging_fires_once_per_interval"
   ],
   "note": ""
  },
  {
   "property": "C43",
   "status": "proved",
   "theorems": [
    "C43_make_then_match"
   ],
   "note": "sorted() is a parameter assumed to sort.  The bytes that print() writes for a record are taken to be its UTF-8 text and a line feed (records are visible ASCII)."
  },
  {
   "property": "C44",
   "status": "proved",
   "theorems": [
    "C44_json_records",
    "C44_json_counts",
    "C44_json_strings",
    "C44_patterns_visible"
   ],
   "note": "json.dumps with its default arguments is modelled by json_str (Format.v); the reader is written from RFC 8259 and does not use it."
  },
  {
   "property": "C45",
   "status": "proved",
   "theorems": [
    "C45_load_accepts_exactly",
    "C45_load_rejects",
    "C45_parts",
    "C45_units"
   ],
   "note": ""
  },
  {
   "property": "C46",
   "status": "proved",
   "theorems": [
    "C46_cut_exists",
    "C46_parse_url",
    "C46_structure",
    "C46_keys",
    "C46_load_accepts_exactly",
    "C46_load_rejects_exactly",
    "C46_host_and_params_ignored",
    "C46_pattern_matches_text",
    "C46_whole_path_refuted"
   ],
   "note": "The check of the network location is an arbitrary function nv."
  },
  {
   "property": "C47",
   "status": "proved",
   "theorems": [
    "C47_tree",
    "C47_texts_spell_pattern",
    "C47_label_text",
    "C47_run"
   ],
   "note": "ete3 (the drawing of a tree of names) is a parameter."
  },
  {
   "property": "C48",
   "status": "proved",
   "theorems": [
    "C48_match_returns",
    "C48_answer",
    "C48_two_exceptions",
    "C48_empty_class_refuted",
    "C48_slash_refuted",
    "C48_hidden_refuted"
   ],
   "note": "Where a list of nodes would hold None the model raises AttributeError at once (Matcher.v)."
  },
  {
   "property": "C49",
   "status": "proved",
   "theorems": [
    "C49_make_by_digest",
    "C49_maker_of_digest",
    "C49_make_run",
    "C49_match_by_digest",
    "C49_match_same"
   ],
   "note": "md5 is the identity in the model: two different digest texts are never confused."
  },
  {
   "property": "C50",
   "status": "proved",
   "theorems": [
    "C50_only_what_differs",
    "C50_literal_iff_shared"
   ],
   "note": "URLs of a cluster are seen through the pieces of its paths (raw texts with legal characters; C20 says which they are)."
  },
  {
   "property": "C51",
   "status": "proved",
   "theorems": [
    "C51_cluster_alone"
   ],
   "note": ""
  },
  {
   "property": "C52",
   "status": "proved",
   "theorems": [
    "C52_one_position"
   ],
   "note": "Texts of several character spaces at the varying position, and several varying positions, are not covered by this exact description (C24, C50 and C51 hold for them)."
  },
  {
   "property": "C53",
   "status": "proved",
   "theorems": [
    "C53_make",
    "C53_load",
    "C53_match",
    "C53_match_load"
   ],
   "note": ""
  },
  {
   "property": "C54",
   "status": "proved",
   "theorems": [
    "C54_output"
   ],
   "note": "The code prints the URLs of one path in the order of a Python set; the model prints them sorted."
  },
  {
   "property": "C55",
   "status": "proved",
   "theorems": [
    "C55_generator",
    "C55_next_returns",
    "C55_undisturbed",
    "C55_only_cluster_grows"
   ],
   "note": "That clusters built by split_by_pattern never change is in the model: their nodes are new (Lazy.v)."
  },
  {
   "property": "C56",
   "status": "proved",
   "theorems": [
    "C56_make",
    "C56_load",
    "C56_urls",
    "C56_one_to_one"
   ],
   "note": ""
  },
  {
   "property": "C57",
   "status": "proved",
   "theorems": [
    "C57_answers",
    "C57_literal",
    "C57_made",
    "C57_url"
   ],
   "note": "The part of Python's re that the strings need is modelled in Re.v (parser, greedy backtracking, '$' before a final line feed)."
  },
  {
   "property": "C58",
   "status": "proved",
   "theorems": [
    "C58_match",
    "C58_load",
    "C58_patterns"
   ],
   "note": "When both loads raise, the exceptions are not claimed to be equal."
  },
  {
   "property": "C59",
   "status": "proved",
   "theorems": [
    "C59_reading_exists",
    "C59_reading_unique",
    "C59_seen_exists",
    "C59_seen_unique",
    "C59_clean",
    "C59_load",
    "C59_slash",
    "C59_empty",
    "C59_hash",
    "C59_newline_refuted"
   ],
   "note": ""
  },
  {
   "property": "C60",
   "status": "proved",
   "theorems": [
    "C60_rejected",
    "C60_found",
    "C60_raises",
    "C60_decides",
    "C60_answer",
    "C60_itself_refuted"
   ],
   "note": "C60_decides: one of the two cases always applies. C60_itself_refuted: a loaded pattern is not found by its own text in general."
  },
  {
   "property": "C61",
   "status": "proved",
   "theorems": [
    "C61_tree",
    "C61_undisturbed",
    "C55_generator",
    "C55_next_returns"
   ],
   "note": "C55_generator and C55_next_returns cover generators of both kinds. That a combined tree never changes later is in the model: its nodes are new (Lazy.v)."
  },
  {
   "property": "C62",
   "status": "proved",
   "theorems": [
    "C62_few",
    "C62_together_refuted",
    "C62_texts_refuted",
    "C62_without_refuted"
   ],
   "note": "The positive claim is C62_few; the three refuted ones have witnesses."
  },
  {
   "property": "C63",
   "status": "proved",
   "theorems": [
    "C63_make",
    "C63_match",
    "C63_lines",
    "C63_files",
    "C63_pattern_file",
    "C63_make_then_match",
    "C63_cluster_file",
    "C63_json_file",
    "C63_inline_file_refuted"
   ],
   "note": "Standard output is taken to be UTF-8, strict, without translation of newlines (Files.v). C63_make_then_match reduces the output for the pattern file to that for the records, which is the subject of C43_make_then_match. The formats are those of Cmd.v, without ETE."
  },
  {
   "property": "C64",
   "status": "proved",
   "theorems": [
    "C64_parts",
    "C64_part_matches",
    "C64_url_matches",
    "C64_part_accepted",
    "C64_load_accepts",
    "C64_load_rejects",
    "C64_single_url"
   ],
   "note": "A cut exists (C64_parts); the other theorems hold for every cut. That the whole pattern fails to match when a unit does is claimed for patterns of one unit only."
  },
  {
   "property": "C65",
   "status": "proved",
   "theorems": [
    "C65_tree",
    "C65_tree_unique",
    "C65_results",
    "C65_node",
    "C65_same_node",
    "C65_is_new",
    "C65_level",
    "C65_every_node"
   ],
   "note": "Heap.v models the nodes as objects with references; a refinement proof ties it to the trees of Trees.v. Covers the time before make(), which writes patterns into these nodes."
  },
  {
   "property": "C66",
   "status": "proved",
   "theorems": [
    "C66_make_load",
    "C66_lone_hash",
    "C66_make_mentions",
    "C66_clusters",
    "C66_combined",
    "C66_match_load",
    "C66_load_mentions",
    "C66_match",
    "C66_match_mentions"
   ],
   "note": "A record is modelled as the call of the logger: its level, the exception and the bytes, the text of the reports, the numbers. str(e), speed and seconds are left out."
  },
  {
   "property": "C67",
   "status": "proved",
   "theorems": [
    "C67_one_run",
    "C67_block"
   ],
   "note": "The texts that change are compared by their lengths; the lengths of the blocks differ from them by a constant."
  },
  {
   "property": "C68",
   "status": "proved",
   "theorems": [
    "C68_trees",
    "C68_load",
    "C68_make",
    "C68_own_or_new",
    "C68_kept",
    "C68_down",
    "C68_apart",
    "C68_node",
    "C68_same_node",
    "C68_is_new"
   ],
   "note": "HCluster.v models pattern_cluster.py on the nodes of Heap.v; a refinement proof ties it to Cluster.v. make() and make(combine=True) run to their end (list(...)), and each result is also looked at in the heap at the moment it is handed over. Sets of metas are values in the model; in the code each is created by the node that has it and given to no other (piece_pattern_node.py 53-65)."
  },
  {
   "property": "C69",
   "status": "proved",
   "theorems": [
    "C69_default",
    "C69_value",
    "C69_clear",
    "C69_refused",
    "C69_bad",
    "C69_enough",
    "C69_small",
    "C69_unset",
    "C69_plain",
    "C69_lines"
   ],
   "note": "Conf.v models the part of CPython 3.11's configparser and of int() that is used. str.lower is a parameter that lowers ASCII and makes nothing empty; the file is taken to be UTF-8."
  },
  {
   "property": "C70",
   "status": "proved",
   "theorems": [
    "C70_refines",
    "C70_returns",
    "C70_one",
    "C70_undisturbed",
    "C70_tree",
    "C70_combined",
    "C70_makers",
    "C70_kept",
    "C70_once",
    "C70_down",
    "C70_apart",
    "C70_node",
    "C70_load",
    "C70_same_node",
    "C70_is_new"
   ],
   "note": "HLazy.v models make() and make(combine=True) as generators on the nodes of Heap.v, HCluster.v and HCombine.v. Sets are gone through in the model's order; C55 covers any order."
  },
  {
   "property": "C71",
   "status": "proved",
   "theorems": [
    "C71_trees",
    "C71_model",
    "C71_new",
    "C71_kept",
    "C71_down",
    "C71_as_make"
   ],
   "note": "HCombine.v models _combine_clusters on the nodes of Heap.v, with the clustering of HCluster.v. make(combine=True) runs to its end; each result is also looked at in the heap at the moment it is handed over. A TreeNode with a Pattern as value is a node of Heap.v whose value spells the pattern string."
  },
  {
   "property": "C72",
   "status": "proved",
   "theorems": [
    "C72_without",
    "C72_stop",
    "C72_returns",
    "C72_one",
    "C72_undisturbed",
    "C72_combined"
   ],
   "note": "HClose.v models close(): the generator is finished and nothing else happens, since no try, with or finally is around the yields. A generator that is dropped is one that is not used again; throw() is not modelled."
  }
 ]
}
{"id": "C01", "title": "levenshtein() is the true edit distance", "statement": "levenshtein(s1, s2) returns the length of the shortest script of single-element insertions, deletions and substitutions that turns s1 into s2, for any two sequences over any alphabet.", "quantifier": "all pairs of finite sequences over any element type with decidable equality", "why_tests_cant": "A minimum over an infinite set of edit scripts; tests only compare a handful of strings with known distances.", "anchors": ["lib/daeso/string/levenshtein.py:levenshtein"]}
{"id": "C02", "title": "levenshtein() is a metric with the standard bounds", "statement": "levenshtein is 0 exactly on equal sequences, symmetric, satisfies the triangle inequality, and lies between the difference of the two lengths and the longer length.", "quantifier": "all pairs and triples of finite sequences", "why_tests_cant": "The triangle inequality ranges over all triples; sampling cannot establish it.", "anchors": ["lib/daeso/string/levenshtein.py:levenshtein"]}
{"id": "C03", "title": "normalized_levenshtein() lies in [0,1]", "statement": "normalized_levenshtein(s1,s2) never fails, is between 0 and 1 inclusive, is symmetric, is 0 exactly for equal sequences, and returns 0.0 for two empty sequences (the caught division by zero).", "quantifier": "all pairs of finite sequences", "why_tests_cant": "Range and division-by-zero claims quantify over all inputs including the empty ones.", "anchors": ["lib/daeso/string/levenshtein.py:normalized_levenshtein"]}
{"id": "C04", "title": "lcs() returns a longest common subsequence", "statement": "lcs(seq1, seq2) terminates without a key error and returns a sequence that is a subsequence of both arguments and at least as long as every common subsequence.", "quantifier": "all pairs of finite sequences", "why_tests_cant": "Maximality ranges over exponentially many subsequences; the back-trace loops could leave the table only for particular inputs.", "anchors": ["lib/daeso/string/lcs.py:lcs"]}
{"id": "C05", "title": "normalized_lcs() lies in [0,1] and is symmetric", "statement": "normalized_lcs(seq1, seq2) never fails, lies in [0,1], is symmetric in its arguments, equals 1 for equal non-empty sequences and 0 when a sequence is empty.", "quantifier": "all pairs of finite sequences", "why_tests_cant": "Quantifies over all inputs; symmetry is not evident because lcs itself is not symmetric.", "anchors": ["lib/daeso/string/lcs.py:normalized_lcs"]}
{"id": "C06", "title": "n-gram extraction is exact", "statement": "n_gram_slices(tokens, n) for n >= 1 lists exactly the contiguous length-n windows of the token sequence, in order of position, each position once (so max(0, len-n+1) of them); padding adds exactly the stated pad symbols on each side; n_gram_slices_range returns, for every n in the range, the same thing.", "quantifier": "all token sequences, all n, all pad sizes", "why_tests_cant": "Universally quantified over lengths and n, including n greater than the sequence length.", "anchors": ["lib/daeso/string/ngram.py:n_gram_slices", "lib/daeso/string/ngram.py:n_gram_slices_range", "lib/daeso/string/ngram.py:pad"]}
{"id": "C07", "title": "skip-bigrams are exactly the ordered pairs within the skip limit", "statement": "skip_bigram_slices(tokens, limit) lists exactly the pairs (tokens[i], tokens[j]) with i < j and at most `limit` tokens in between, each position pair once, in lexicographic order of positions; with an unbounded limit their number is n(n-1)/2.", "quantifier": "all token sequences and limits", "why_tests_cant": "Set equality over all position pairs for all lengths.", "anchors": ["lib/daeso/string/sgram.py:skip_bigram_slices"]}
{"id": "C08", "title": "set_median_string() returns a member of minimal summed distance", "statement": "For a non-empty list of strings and a symmetric distance that is zero on the diagonal, the result is an element of the list whose total distance to all elements is minimal, and it is the first such element; for an empty list the call fails.", "quantifier": "all non-empty lists and all symmetric distance functions", "why_tests_cant": "Optimality over all candidates and over all distance functions.", "anchors": ["lib/daeso/string/median.py:set_median_string"]}
{"id": "C09", "title": "ROUGE scores: range and failure behaviour", "statement": "rouge_ngram counts, with multiplicity, the candidate n-grams that occur in the references over the number of reference n-grams; rouge_l and rouge_s are in [0,1] whenever they return; which inputs raise ZeroDivisionError is characterised. (The plain expectation that rouge_n <= 1 is false of the code.)", "quantifier": "all candidate/reference token lists, all n, limits and beta", "why_tests_cant": "Range claims over all inputs and multiplicities; a score above 1 needs repeated n-grams that tests do not contain.", "anchors": ["lib/daeso/string/rouge.py:rouge_n", "lib/daeso/string/rouge.py:rouge_l", "lib/daeso/string/rouge.py:rouge_s", "lib/daeso/string/rouge.py:count_match"]}
{"id": "C10", "title": "Set similarity measures: range, symmetry, identity", "statement": "cosine, tanimoto, dice, jaccard, overlap_min, overlap_max and the generalized versions are total, symmetric, lie in [0,1], are 1 for two equal duplicate-free non-empty sequences, 0 for disjoint ones; generalized measures on two sequences agree with the binary ones.", "quantifier": "all pairs (lists) of finite sequences", "why_tests_cant": "Laws over all sequences, including duplicates which shrink the intersection but not the lengths.", "anchors": ["lib/daeso/string/similar.py"]}
{"id": "C11", "title": "Needleman-Wunsch alignment is optimal", "statement": "With any element scoring function and a constant gap cost, the score computed by needleman_wunsch is the maximum score of any global alignment of the two sequences, and the returned alignment achieves it, is strictly increasing in both coordinates, and covers only valid positions.  With a gap cost that depends on the element this is false: the first row/column charges gap_cost(seq[i-1])*i.  Ties are broken in a fixed way: of equally good last steps the table keeps leaving out an element of the first sequence, then of the second, and aligns only if that is strictly better.", "quantifier": "all sequence pairs, all scoring functions, all constant gap costs", "why_tests_cant": "Optimality over all alignments and scoring functions.", "anchors": ["lib/daeso/string/needleman_wunsch.py:needleman_wunsch"]}
{"id": "C12", "title": "Smith-Waterman local alignment is optimal", "statement": "For any scoring function and any element-dependent non-positive gap cost, smith_waterman returns a local alignment whose score is maximal among all local alignments whenever some positive score exists, and fails with IndexError otherwise.  Ties are broken in a fixed way (up, end, left, diagonal), and with negative gap costs the alignment ends at the last position with the best score.", "quantifier": "all sequence pairs, all scoring and gap functions", "why_tests_cant": "Optimality over all local alignments.", "anchors": ["lib/daeso/string/smith_waterman.py:smith_waterman"]}
{"id": "C13", "title": "Waterman-Eggert: limited searches end, the first alignment is a best one, later ones may overlap or never stop coming", "statement": "With a limit, waterman_eggert always ends and returns at most that many alignments, each increasing in both coordinates and within the sequences; the first is a best local alignment (and there is none exactly if no local alignment has a positive score).  The documented claims that alignments do not intersect and that without limit all of them are returned are false: alignments can share a pair, and the search can go on for ever with empty alignments.", "quantifier": "all sequence pairs, scoring functions, non-positive gap costs and limits", "why_tests_cant": "The in-place matrix recomputation has long-range effects that examples do not exercise; non-termination cannot be observed by a test.", "anchors": ["lib/daeso/string/waterman_eggert.py:waterman_eggert", "lib/daeso/string/waterman_eggert.py:recalculate_matrix"]}
{"id": "C14", "title": "Document and term frequencies are exact", "statement": "calculate_document_frequencies counts for every term the number of documents containing it, and calculate_term_frequencies lists the distinct terms in strictly increasing order with the exact number of occurrences of each term in each document; idf weights are ln(docs/df), between 0 and ln(docs) and 0 exactly for terms in every document, tf*idf weights are relative frequency (or presence) times idf, normalization brings both into [0,1]; the normalized variants fail with ValueError for an empty collection and with ZeroDivisionError for a single non-empty document.", "quantifier": "all document collections", "why_tests_cant": "Counting laws for arbitrary collections.", "anchors": ["lib/daeso/string/tf_idf.py:calculate_document_frequencies", "lib/daeso/string/tf_idf.py:calculate_term_frequencies", "lib/daeso/string/tf_idf.py:idf", "lib/daeso/string/tf_idf.py:tf_idf"]}
{"id": "C15", "title": "spell_out_number() reads a number group by group, almost unambiguously", "statement": "For every integer below 10^24 spell_out_number returns the readings of its groups of three digits with their magnitudes (hundreds form for four-digit numbers with a non-zero second digit, if preferred); two such integers get the same words exactly if they are equal or differ only in having 0 or 1 thousand below some millions (so the words are unambiguous below a million, and not in general: 1000000 and 1001000 collide); every multiple of 1000 ends in 'nul'; integers of 10^24 and above raise IndexError and negative ones an error.", "quantifier": "all integers", "why_tests_cant": "Injectivity over 10^24 inputs and an exact characterisation of its failures.", "anchors": ["lib/daeso/string/number.py:spell_out_number", "lib/daeso/string/number.py:_digit_triple_to_words"]}
{"id": "C16", "title": "OrderedDict behaves as an insertion-ordered map", "statement": "After any sequence of set/delete/clear/pop/popitem/setdefault/update operations an OrderedDict iterates over exactly the present keys, each once, in order of first insertion since last removal; lookups return the last value assigned; popitem removes and returns the last inserted pair.", "quantifier": "all operation histories", "why_tests_cant": "Histories of unbounded length; agreement of the key list and the hash table is an invariant.", "anchors": ["lib/daeso/thirdparty/odict.py:OrderedDict"]}
{"id": "C17", "title": "Counter is a multiset with the documented algebra", "statement": "Missing keys count 0, update adds multiplicities, elements() repeats each key by its count, + - | & produce the pointwise sum, truncated difference, maximum and minimum restricted to positive results, and most_common lists all counts in non-increasing order.", "quantifier": "all iterables, all pairs of counters (including negative counts)", "why_tests_cant": "Pointwise laws for every key and all counter contents.", "anchors": ["lib/daeso/thirdparty/counter.py:Counter"]}
{"id": "C18", "title": "GenericCache never serves a wrong or expired value and respects its size", "statement": "A fetch returns the most recently inserted value for that key if it has not been removed, evicted or expired, and the default otherwise; with a maximum size of at least 1 the number of entries never exceeds the maximum after an insert that returns.", "quantifier": "all histories of insert/fetch/remove/collect operations and clock readings", "why_tests_cant": "Histories and clocks are unbounded.", "anchors": ["lib/daeso/thirdparty/GenericCache/GenericCache.py", "lib/daeso/thirdparty/GenericCache/LRUStock.py"]}
{"id": "C19", "title": "GenericCache eviction: least recently used first, unless a stored key was overwritten", "statement": "For every history of calls the answers, the stored keys, the order of use and whether a call returns at all are determined as follows: every stored key has a mark in order of last use; inserting a key that is still stored leaves its old mark behind until clear(); making room removes the key of the oldest mark, and never returns when that key is no longer stored. So: if no stored key is inserted again, a full cache that takes a new key evicts exactly the least recently used entries and every call returns; without a size limit overwriting is harmless; with a limit, inserting a key twice and then limit+1 other keys always blocks (finding).", "quantifier": "all histories of fetch, insert, remove, clear, collect, reconfigure and fetch_with_generator, all limits, lifetimes and clock readings", "why_tests_cant": "Needs a particular history (overwrite, then eviction) to fail; a proof must consider every history.", "anchors": ["lib/daeso/thirdparty/GenericCache/GenericCache.py:insert", "lib/daeso/thirdparty/GenericCache/LRUStock.py:LRUStock"]}
{"id": "C20", "title": "Munkres.compute returns a perfect matching of the smaller side", "statement": "compute() returns pairs (row, column) inside the given matrix in which every row and every column occurs at most once, and exactly min(rows, columns) of them.", "quantifier": "all rectangular integer cost matrices with at least one row and column", "why_tests_cant": "The algorithm's state machine may run through arbitrarily many primed/covered configurations.", "anchors": ["lib/daeso/thirdparty/munkres.py:Munkres.compute"]}
{"id": "C21", "title": "Munkres.compute returns a minimum-cost assignment", "statement": "The sum of the costs of the returned pairs is at most that of any other assignment of the same size.", "quantifier": "all cost matrices, all competing assignments", "why_tests_cant": "Optimality over n! assignments.", "anchors": ["lib/daeso/thirdparty/munkres.py:Munkres.compute"]}
{"id": "C22", "title": "Munkres.compute terminates", "statement": "For every rectangular integer cost matrix, whatever the size of its entries (even above sys.maxint), the state machine reaches its final state.", "quantifier": "all integer cost matrices", "why_tests_cant": "Termination is a liveness property; no finite test can show it.", "anchors": ["lib/daeso/thirdparty/munkres.py:Munkres"]}
{"id": "C23", "title": "DaesoGraph keeps successor and predecessor tables consistent and ordered", "statement": "After any sequence of add_node/add_edge operations each edge is listed exactly once on both sides with the same label, only between existing nodes, and successors are listed in order of first insertion.", "quantifier": "all operation histories", "why_tests_cant": "An invariant over histories of unbounded length.", "anchors": ["lib/daeso/graph/ograph.py:ODiGraph.add_edge", "lib/daeso/graph/daesograph.py:DaesoGraph.add_edge"]}
{"id": "C24", "title": "terminal_yield() lists each reachable terminal once, in left-to-right order", "statement": "terminal_yield(n) returns every terminal node reachable from n exactly once; on a tree the order is the left-to-right depth-first order of the leaves; it terminates on cyclic graphs.", "quantifier": "all finite graphs and start nodes", "why_tests_cant": "Reachability closure over arbitrary graphs, including re-entrant ones.", "anchors": ["lib/daeso/graph/daesograph.py:DaesoGraph.terminal_yield"]}
{"id": "C25", "title": "A graph pair never aligns a node twice", "statement": "After any sequence of add_align/del_align on a GraphPair each source node is aligned to at most one target node and vice versa, add_align(n1,n2) replaces exactly the alignments of n1 and n2, and all other alignments are unchanged.", "quantifier": "all operation histories", "why_tests_cant": "Invariant and frame condition over unbounded histories.", "anchors": ["lib/daeso/pgc/graphpair.py:GraphMatching.add_align", "lib/daeso/pgc/graphpair.py:GraphMapping.del_align"]}
{"id": "C26", "title": "Alignment lookup agrees with the alignment history", "statement": "get_align returns the label of the last add_align of that pair not since deleted or displaced and None otherwise; alignments() lists each stored alignment exactly once; a relation filter lists exactly those with that relation; deletion leaves no isolated node behind.", "quantifier": "all operation histories", "why_tests_cant": "Refinement of a partial map over all histories.", "anchors": ["lib/daeso/pgc/graphpair.py:GraphMapping"]}
{"id": "C27", "title": "Corpus list operations keep the corpus compatible and list-like", "statement": "Slicing, concatenation, repetition and extension of a ParallelGraphCorpus act on the graph pairs like the same list operations, keep relations and meta data, and refuse incompatible operands without changing anything.", "quantifier": "all corpora and indices", "why_tests_cant": "Algebraic laws over all lists and slice bounds.", "anchors": ["lib/daeso/pgc/corpus.py:ParallelGraphCorpus"]}
{"id": "C28", "title": "purge() makes equal graph banks one object", "statement": "When corpus.purge() returns, every graph pair of the corpus holds the first bank, in corpus order, that is the same file as the bank it held before, so that no two bank objects for one file remain in use.  It raises OSError exactly when two different paths are in use of which one does not exist, and even then no pair refers to another file than before and pairs outside the corpus are untouched.  purge(graph_pair) is limited to that pair, except that the limit is ignored for a pair without alignments.", "quantifier": "all corpora, sharing patterns, file systems and dict orders", "why_tests_cant": "Quantifies over all sharing patterns between banks and pairs, repeated pairs, links between files and the order in which a dict lists its values.", "anchors": ["lib/daeso/pgc/corpus.py:ParallelGraphCorpus.purge", "lib/daeso/gb/graphbank.py:GraphBank.__eq__"]}
{"id": "C29", "title": "A parallel graph corpus survives writing and reading", "statement": "Reading (without loading graphs) the XML that was written for a corpus gives back its relations, its meta data and every graph pair, in order, with the same graph ids, alignments, meta data and banks (path and format of the first bank in use on the same file; relative paths lead back to the bank), and no warnings.  Two references lead to one bank object exactly if they were banks on the same file.  Writing raises OSError exactly if two different bank paths are in use of which one does not exist.  Meta data without children is lost, and meta data with a reserved tag inside can make the file unreadable.", "quantifier": "all corpora with stripped relations, real paths, non-empty formats and meta data free of reserved tags; both kinds of paths; all dict orders", "why_tests_cant": "A round trip over all corpora, sharing patterns of banks and relative positions of files.", "anchors": ["lib/daeso/pgc/corpus.py:PGCGenerator", "lib/daeso/pgc/corpus.py:PGCParser"]}
{"id": "C30", "title": "pgc_diff reports every chosen alignment exactly once, under the right heading", "statement": "If pgc_diff returns, it has printed one block per graph pair; the items are numbered 1, 2, 3, ... throughout; each block lists, once each and ordered by source node within a section, exactly the alignments (of the chosen relations) that are identical (if asked for), have a different relation, or occur in only one corpus, each with the relations of both corpora.  Without a filter these verdicts partition the alignments of the two corpora and are mirrored when the corpora are exchanged.  It returns whenever the corpora have the same length and graphs and integer source node ids.  With a filter it is not symmetric; words_only fails or reports the wrong alignments.", "quantifier": "all corpora, alignment histories and relation filters", "why_tests_cant": "Set-theoretic partition over all alignment sets.", "anchors": ["lib/daeso/pgc/diff.py:pgc_diff", "lib/daeso/pgc/diff.py:print_alignments"]}
{"id": "C31", "title": "Alignment evaluation counts and scores are consistent", "statement": "For every relation, common <= min(true, pred); precision, recall and F are in [0,1]; F lies between precision and recall; exchanging true and predicted exchanges precision and recall; comparing a corpus to itself gives precision = recall = 1 for each relation that occurs; the any-relation totals are the sums over relations; precision is common/pred and recall common/true (0 if undefined), F is the weighted harmonic mean, macro means are averages over the rows, micro means are computed from summed counts, and variances divide by n - 1.", "quantifier": "all true/predicted corpora and beta in [0,1]", "why_tests_cant": "Arithmetical facts over all counts.", "anchors": ["lib/daeso/pgc/evaluate.py:AlignEval", "lib/daeso/pgc/evaluate.py:AlignCounts"]}
{"id": "C32", "title": "Inter-annotator agreement averages", "statement": "For N >= 2 annotators with different names, each of the N*(N-1) ordered pairs is compared exactly once; the cell of true annotator t and predicting annotator p is the measure of evaluating p's corpus against t's; each column mean (SD) and the overall mean (SD) are the mean (sample deviation) of exactly the scores off the diagonal, so they lie between the smallest and largest score; the recall table is the precision table transposed, with the same overall mean; fewer than two annotators raise ZeroDivisionError; the words-only option keeps exactly the alignments between two terminals.", "quantifier": "all annotator lists, corpora of equal length, relations and measures", "why_tests_cant": "Holds for every number of annotators and every corpus; a test fixes a few tables.", "anchors": ["lib/daeso/pgc/agreement.py:cross_evaluate", "lib/daeso/pgc/agreement.py:tableize", "lib/daeso/pgc/agreement.py:AnalysesTable", "lib/daeso/pgc/agreement.py:read_corpora"]}
{"id": "C33", "title": "Indexed elements slice the document text correctly", "statement": "After index_elem on an element tree, for every element not under an ignored element, text[_start:_end] equals the concatenated text of that element's own subtree, and the _n numbers of elements with one tag are 1,2,3,... in document order, ignored or not; the tag tables find every element back by number, and by id the last one with that id.  (Refuted: not every element inside an ignored one is marked _ignore, and re-rendering leaves stale positions.)", "quantifier": "all element trees and ignore settings", "why_tests_cant": "Structural induction over arbitrary trees.", "anchors": ["lib/daeso/ptc/ielemtree.py:index_elem", "lib/daeso/ptc/ielemtree.py:get_elem_text"]}
{"id": "C34", "title": "Alignment link injection and extraction are inverse", "statement": "Extracting the alignments of a parallel text corpus as id or n pairs and injecting them again restores every source element's alignments, provided the aligned ids are unique per tag; injecting links and extracting them again gives the same links grouped by source element in document order, hence unchanged if they were in that order.  A link to an unknown tag or id, a number out of range or an unreadable number raises the corresponding exception of the first bad link; numbers 0, -1, ... count from the end (finding), and a shared id means the last element with it.", "quantifier": "all documents and alignments", "why_tests_cant": "Round-trip over all documents.", "anchors": ["lib/daeso/ptc/document.py:HitaextDoc.inject_alignments_n", "lib/daeso/ptc/document.py:HitaextDoc.extract_alignments_n"]}
{"id": "C35", "title": "no_cross_filter() returns a non-crossing greedy alignment", "statement": "The returned pairs never cross, all have score at least the threshold, no pair is returned that was not offered, and every offered pair at or above the threshold that is left out crosses a returned pair of at least its own score.", "quantifier": "all score tables and thresholds", "why_tests_cant": "Pairwise property over all selections.", "anchors": ["lib/daeso/ptc/textalign.py:no_cross_filter"]}
{"id": "C36", "title": "Re-aligning only replaces the links of the aligned tags", "statement": "clear_alignments keeps, in order, exactly the links that neither start at the source focus tag nor end at the target focus tag; _create_alignments adds each pair at most once; align_corpus keeps the alignments of all elements without the source focus tag and only adds links between focus elements inside aligned scope elements.", "quantifier": "all link lists", "why_tests_cant": "Universal over all link lists.", "anchors": ["lib/daeso/ptc/textalign.py:TextAligner._create_alignments", "lib/daeso/ptc/textalign.py:clear_alignments"]}
{"id": "C37", "title": "Weighted cosine similarity lies in [0,1]", "statement": "For non-negative weights the weighted cosine similarity of two texts is between 0 and 1, symmetric, and total.", "quantifier": "all weight vectors", "why_tests_cant": "Cauchy-Schwarz over all vectors.", "anchors": ["lib/daeso/ptc/textalign.py:weighted_cosine_sim"]}
{"id": "C38", "title": "etree equality is an equivalence and ignores layout", "statement": "equals(e1,e2) decides, for elements with ASCII texts, whether tag, stripped text, stripped tail, attributes and recursively the children agree; it is reflexive, symmetric and transitive, and raises only (a UnicodeEncodeError) for texts that are not ASCII. indent() replaces exactly the blank texts of elements with children and the blank tails below the root by line breaks with the right indentation, changes nothing else and is idempotent. A tree equals its indented form exactly when no replaced text was missing (None prints as 'None'). (A text of non-breaking spaces is lost.)", "quantifier": "all element trees", "why_tests_cant": "Induction over arbitrary trees.", "anchors": ["lib/daeso/utils/etree.py:equals", "lib/daeso/utils/etree.py:indent"]}
{"id": "C39", "title": "Corpus statistics add up", "statement": "The row pgc_stats makes for a corpus counts exactly the graph pairs that the options keep (those with failed parses, those with unaligned roots) and among their alignments the node pairs that are not skipped as empty or punctuation, per relation; the rows of the banks count exactly the kept graphs, how often they are aligned, their tokens and nodes. Node pairs = sum of the five relations; graphs = aligned + unaligned; aligned = single + multiple; nodes = aligned + unaligned; percentages are the counts divided, within 0..100 (the relations together 100), in rows and overall. Options that leave out less only add; the order of pairs and graphs does not matter. Counting fails exactly for a counted link with a missing node or an unknown relation, or for a threshold. (PGFP can exceed 100 when unaligned graphs are left out; a graph in many pairs may count as single aligned.)", "quantifier": "all graph banks, corpora and options", "why_tests_cant": "Accounting identities over arbitrary corpora, option combinations and orders.", "anchors": ["lib/daeso/gb/gbstats.py", "lib/daeso/pgc/pgcstats.py", "lib/daeso/graph/daesograph.py:node_is_empty,node_is_punct"]}
{"id": "C40", "title": "Statistics tables sum, grow and survive being written and read", "statement": "A new statistics table has exactly the columns its definition names, in that order, with the given number of empty rows (IndexError for a line with a label but no type). Summarising gives each count column the sum of its rows as overall and changes nothing else; growing keeps the earlier rows and adds empty ones. A written table has a header, a line of dashes, one line per row, dashes and a line with the overalls (counts as integers, other numbers to two decimals), and optionally a numbered legenda. Reading it into a table with the same columns appends exactly the written rows, with strings and counts unchanged and other numbers rounded to hundredths, provided strings are words that do not look like a line of dashes and numbers have at most seven characters; nothing after the second line of dashes matters, and reading fails only with EOFError or ValueError. (Names with blanks or leading dashes and counts of eight digits are not read back; a table without columns cannot be read.)", "quantifier": "all definitions, tables, texts and row sequences", "why_tests_cant": "Over all row sequences, numbers and texts.", "anchors": ["lib/daeso/stats/table.py", "lib/daeso/gb/gbstats.py:GbStatsTable", "lib/daeso/pgc/pgcstats.py:PgcStatsTable"]}
{"id": "C41", "title": "pgc_split partitions a corpus and pgc_join undoes it", "statement": "pgc_split writes consecutive non-empty pieces of the corpus, all of the chosen size except perhaps the last, into files named after the positions of their first and last pair; the names differ from each other and from the input. Without a size at most the requested number of files is written; the only failure is zero parts, and negative numbers write nothing. pgc_join takes the files in alphabetical order and fails exactly for no files or differing relations; it restores a split corpus of fewer than 10000 pairs whatever order the files are found in. (Larger corpora come back out of order; the number of parts can be smaller than requested.)", "quantifier": "all corpora, sizes, part counts and file orders", "why_tests_cant": "Arithmetic over all lengths and part counts, and all permutations of files.", "anchors": ["bin/pgc_split.py", "bin/pgc_join.py", "lib/daeso/utils/opsys.py:multiglob"]}
{"id": "C42", "title": "Sparse graph banks resolve every stub to one shared graph", "statement": "Reading a parallel graph corpus without its graphs gives all pair sides that ask for the same graph of the same bank one shared stub carrying its id. Loading the graphs sparsely succeeds exactly if all bank files can be read, contain every graph asked for, and no pair asks for the same graph twice (otherwise DaesoError, or AssertionError for such a pair); then every side is bound to a graph with the content of the file, two sides share a graph object exactly if they ask for the same graph, the bank returns that same object and KeyError for graphs nobody asked for, only the graphs asked for were made, and the result is the same as that of loading everything.", "quantifier": "all requests, bank files, and orders in which the banks and their dictionaries are traversed", "why_tests_cant": "History property with sharing, over all corpora and dictionary orders.", "anchors": ["lib/daeso/gb/graphbank.py:SparseGraphBank", "lib/daeso/gb/graphstub.py", "lib/daeso/gb/parser.py", "lib/daeso/pgc/corpus.py:PGCParser"]}
{"id": "C43", "title": "GraphML graph bank parsing reproduces the file", "statement": "Reading a bank file succeeds exactly if all keys are declared properly, every wanted graph is acceptable (id; known data keys; labels and tokens; edges between nodes given before) and, in sparse mode, every requested id occurs; otherwise it raises KeyError, DaesoError, TypeError or ValueError. It then makes one graph object per wanted element in file order, with the nodes and edges in order of first occurrence and the last value given for each attribute, and each id gives the object of the last element with that id. Sparse loading finds the same elements as full loading. Unwanted graphs are skipped completely, and layout (white space, unknown elements, text in pieces) does not matter. (Findings: <default> elements have no effect; the root given in the file is never used; graph data after an edge are given to the edge; parse_string never returns in sparse mode.)", "quantifier": "all GraphML documents, requested ids and layouts", "why_tests_cant": "Over all files, attribute orders and layouts.", "anchors": ["lib/daeso/gb/graphml.py:GraphmlParser", "lib/daeso/gb/parser.py:XmlGraphbankParser", "lib/daeso/graph/daesograph.py:DaesoGraph"]}
{"id": "C44", "title": "Parallel text evaluation and diff are consistent", "statement": "The true, predicted and common counts are the numbers of different (from id, to id) pairs of the links whose both ends have the given tag; exchanging the corpora exchanges the counts; precision, recall and F lie in [0,1], F is 1 exactly for equal non-empty alignments and 0 exactly for disjoint ones; the overall row scores the sums. The diff of two corpora over the same documents reports exactly the links by id that the other corpus lacks, is empty on equal corpora, and changes sides under exchange. (Links by number all count as one alignment; the tag of the target is not compared by the diff.)", "quantifier": "all pairs of corpora and tags", "why_tests_cant": "Set laws over all corpora.", "anchors": ["lib/daeso/ptc/evaluate.py:eval_alignment,count_alignment,compute_scores", "lib/daeso/ptc/diff.py:print_diff"]}
{"id": "C45", "title": "pgc_from_ptc creates exactly the admissible graph pairs", "statement": "The new corpus has, in the order of the links, one pair of the graphs with the ids of the link for each link with the requested tags whose elements have at most max_token_len words each and (if min_token_diff is not 0) at least min_token_diff words in all that do not occur on the other side; there are no other pairs. It raises KeyError exactly if such a link names no element, or passes the limits but names no graph. Weaker limits only add pairs. (Refuted: a link without ids is always reported.)", "quantifier": "all text corpora, document trees, graph banks, tags and limits", "why_tests_cant": "Filter law over all inputs.", "anchors": ["lib/daeso/pgc/creation.py:pgc_from_ptc", "lib/daeso/pgc/creation.py:_token_diff", "lib/daeso/pgc/creation.py:_get_elem_tokens"]}
{"id": "C46", "title": "Corpus path rewriting is exact, and undoable exactly when no path already had the new prefix", "statement": "pgc_chdir replaces the old path prefix by the new one in the text of exactly those file elements below the root that start with it and changes nothing else; it fails, with AttributeError, exactly when some file element has no text. Changing back restores the document exactly when every bank file starts with the old prefix or does not start with the new one; equal prefixes (the default) change nothing. The prefix is compared as text, not per directory (../gb also matches ../gb2). ptc_chdir makes a path the last component (slashes or backslashes, without drive letter) in the given directory; it fails with IndexError exactly for an empty path or a single capital letter; a second run changes nothing when a directory is given, but not with the default empty directory. A dry run writes nothing, a real run changes only the files listed, and a run that fails has written exactly the files before the failing one.", "quantifier": "all XML trees, texts, prefixes, directories, paths, file systems and lists of files", "why_tests_cant": "Over all trees and strings, including overlapping prefixes, and all points of failure.", "anchors": ["bin/pgc_chdir.py", "bin/ptc_chdir.py", "lib/daeso/ptc/document.py: get_filename, set_filename"]}
{"id": "C47", "title": "Statistics of a corpus segment add up", "statement": "After corpus_seg_stats every requested part (annotation and subsegment: all, by annotation, by subsegment or as annotation.subsegment) has its two tables in its files (an empty table leaves the file alone), the parts not requested keep theirs, the files of every annotation have the rows of the files of its parts in order with summed counts and percentages and averages computed from the sums, the files of the segment those of its annotations, and no other file changes. So in a fresh directory each count of the segment is the sum of the counts of all parts. The names differ if names have no dots and slashes; the segment is the last part of its directory; no parts is an AssertionError. (Findings: the old table of an annotation for which nothing is found is counted; a file cut short stops the run; an annotation called all is counted twice; parts x/1 and x.1 share a file.)", "quantifier": "all segments, annotations, parts, requests, tables and contents of the directory before the run", "why_tests_cant": "Over all previous contents of the directory and histories of partial runs.", "anchors": ["lib/daeso/stats/corpus.py:corpus_seg_stats,read_subtable,write_table", "lib/daeso/pgc/pgcstats.py:PgcStatsTable.summarize", "lib/daeso/gb/gbstats.py:GbStatsTable.summarize"]}
{"id": "C48", "title": "Equality, deep copies and annotators of graph pairs and corpora", "statement": "Whatever has been done to graph pairs and corpora before: if == gives an answer for two graph pairs then it is right (same class, graph bank files, graph ids, meta data up to white space, alignments), likewise for two corpora (relations, meta data and graph pairs in order); == is reflexive, symmetric and transitive, and raises only if a graph bank file is missing (OSError), meta data are not ASCII (ValueError) or just one corpus has meta data (AttributeError). A deep copy looks the same as the original, a graph pair at two positions is copied once, and from then on no operation on objects that existed before affects the copy, and no operation on others affects what was there before. A copy of a corpus with ASCII meta data equals the original unless meta data without children got lost. get_annotator gives the text of the first annotator element; set_annotator changes nothing else, annotators added one by one are joined by plus signs, corpora sharing the element (slices) share the annotator. (Findings: meta data without children are not copied; a slice's annotator is the whole corpus's; a corpus without meta data cannot be given an annotator.)", "quantifier": "all histories of operations on elements, graph pairs and corpora, and all states of the file system", "why_tests_cant": "Over all histories and ways of sharing objects.", "anchors": ["lib/daeso/pgc/graphpair.py:GraphPairBase.__eq__,__deepcopy__,GraphMapping.__eq__,__deepcopy__", "lib/daeso/pgc/corpus.py:ParallelGraphCorpus.__eq__,__deepcopy__,get_annotator,set_annotator", "lib/daeso/gb/graphbank.py:GraphBank.__eq__", "lib/daeso/pair.py:Pair.__eq__"]}
{"id": "C49", "title": "Copying, packing and unpacking corpora (pgc_cp, pgc_zip, relax_gb_paths, multiglob)", "statement": "pgc_cp without --overwrite never changes an existing file; in any case it changes only the places its sources go to, never a source by copying it onto itself. If the base names of the sources differ, every source is either complained about (missing, not a corpus, same file, target exists) or copied so that the copy, read from its own place, is the same corpus with the same graph bank files, formats, alignments, relations and meta data with children. It ends early only at a corpus of which two graph bank files cannot be compared or a format is missing, or if the target cannot be opened; later sources are then not copied. pgc_zip succeeds exactly if all corpora can be read and all their graph bank files exist; the archive then holds exactly these files under their base names. A packed corpus, unpacked anywhere and read with relax_gb_paths, is the same corpus with the unpacked bank files, if base names differ and nothing is found at the recorded paths. glob and multiglob give all matches in sorted order. (Findings: with --overwrite sources of equal base names replace each other; any XML document without corpus tags is copied as an empty corpus; files of equal base names replace each other in an archive; a file at the recorded path at the other site is preferred to the unpacked bank; overlapping patterns repeat files.)", "quantifier": "all file trees (without links), lists of sources and patterns, corpora, archive names and sites", "why_tests_cant": "Over all file trees and corpora, and over sequences of copies that affect each other.", "anchors": ["bin/pgc_cp.py", "bin/pgc_zip.py:pgc_zip", "lib/daeso/utils/opsys.py:glob,multiglob", "lib/daeso/pgc/corpus.py:PGCParser.handle_file_elem_end,ParallelGraphCorpus._graphbanks,PGCGenerator.generate"]}
{"id": "C50", "title": "Settings of a Hitaext document", "statement": "Setting a file name or pseudo root, adding a tag, changing an attribute of a tag and setting up the tags of a document changes exactly that setting of that side; the other side, the alignment section and everything else in the document stay as they are, over any sequence of operations from a new document. Setting up the tags appends one entry per different tag in order of first occurrence, with uniq True exactly for tags that occur once, and makes the tag of the root the pseudo root. Only changing an attribute of an absent tag fails (AttributeError). The getters give the current settings: the trimmed file name, tags with a true attribute in order, the first entry of a tag (get_elem) or the last (get_elem_dict). A document is accepted by the constructor exactly if both sides have a file name that is not white space; a missing name gives AttributeError, a blank one AssertionError. Writing and reading keeps all settings except an empty name. Searching for a file tries the name, the name in the directory of the document, and (finding: instead of the base name in that directory) the document itself. (Further findings: a new document that is written cannot be read; an element without children is replaced by the template instead of refused; setting up tags twice gives every tag twice.)", "quantifier": "all documents of the expected structure, sequences of operations, document trees and file systems", "why_tests_cant": "Over all histories of settings and all documents.", "anchors": ["lib/daeso/ptc/document.py:HitaextDoc.__init__,validate,get_filename,set_filename,get_pseudo_root,set_pseudo_root,get_tags,get_pseudo_root_tags,get_elem_tags,get_elem,get_elem_dict,add_elem,init_elems,write"]}
{"id": "C51", "title": "Terms, weights and scores of the text aligner", "statement": "The word (character) terms of a text are the n-grams of its words (characters), joined with blanks, in order. Preprocessed word terms are the n-grams of the lower-cased words. Each named similarity is the ratio of counts that its name says. For every choice of term, weight, similarity and filter function the aligner scores each pair of a source and a target element exactly once, row by row, from the terms and weights of these two elements, and fails only if the weight function or a similarity fails; with a threshold filter exactly the pairs above the threshold are selected, in order. tf-idf weights never fail in the aligner, and the weighted cosine of two elements is in [0,1], symmetric, 0 exactly if they share no informative term (one in some but not all elements) and 1 exactly if they have the same informative terms and at least one. (Findings, proved: punctuation is tested on the whole text and thus not removed; the preprocessed character terms are word terms; the default aligner selects every pair whatever its score; a single identical pair has tf-idf cosine 0; weighted cosine with the default weights always raises TypeError.)", "quantifier": "all texts, n, collections of elements, term/weight/similarity/filter functions and thresholds", "why_tests_cant": "Over all texts and collections, with real-valued weights.", "anchors": ["lib/daeso/ptc/textalign.py:TextAligner,word_n_gram_factory,char_n_gram_factory,preproc_word_n_gram_factory,preproc_stopword_word_n_gram_factory,preproc_char_n_gram_factory,no_weight,tf_idf_indicator_weight,equals_sim,weighted_cosine_sim,no_filter,threshold_filter_factory"]}
{"id": "C52", "title": "Whole evaluations and their report", "statement": "A user adds pairs of true and predicted corpora to an evaluation and evaluates, in any order and as often as wanted. The evaluation then reports for each relation, and for any relation, the total counts, mean and variance over the corpora, and precision, recall and F from the totals (micro) and as mean over the corpora (macro); and overall, the sums over the relations, the measures of these sums and the mean over relations; all measures are in [0,1]. Sums and micro averages depend only on the graph pairs, not on their division into corpora, order or names, nor on evaluations in between. It fails (ZeroDivisionError) exactly if nothing was added or there are no relations. Corpora of different length are refused without any change; names and rows always match. The report shows these numbers line by line, rows can be read back as words, and there is no report without an evaluation or if anything was added after it. (Findings, proved: an addition that fails with an unknown relation leaves its name and partial counts behind; with a relation repeated twice the overall macro average is wrong.)", "quantifier": "all histories of additions and evaluations, all corpora, relations and names", "why_tests_cant": "Over all histories, corpora and sizes.", "anchors": ["lib/daeso/pgc/evaluate.py:AlignEval.add,AlignEval.run_eval,AlignEval.write,AlignCountsTable.run_eval,AlignCountsTable.write", "lib/daeso/utils/report.py:header"]}
{"id": "C53", "title": "A cache shared by threads", "statement": "A GenericCache may be used by any number of threads under any schedule of their atomic steps. The synchronized calls (fetch, fetch_with_generator, insert, remove, clear, collect, reconfigure, size) are linearizable: at every moment there is a sequential account of them, only appended to later, containing every thread's calls in its order, which on a single thread gives exactly the same answers and, whenever nobody holds the lock, the same stored state; no unexpected exception is raised. There is no deadlock. If every sequence of the calls returns on a single thread - which is so without a size limit, and for memoised functions - then all threads finish under every fair schedule; and a memoised function shared by threads answers every caller exactly what the function would. (Findings, proved: a call that never returns, see C19, blocks the next synchronized call of every thread for ever; keys() and has_key() take no lock and can show a state that exists between no two calls.)", "quantifier": "all thread programs, any number of threads, all schedules of atomic steps, all limits, expiries and clock readings", "why_tests_cant": "Over all schedules; liveness over infinite fair schedules.", "anchors": ["lib/daeso/thirdparty/GenericCache/GenericCache.py:GenericCache.fetch,GenericCache.fetch_with_generator,GenericCache.insert,GenericCache.remove,GenericCache.reconfigure,GenericCache.clear,GenericCache.collect,GenericCache.size,GenericCache.keys,GenericCache.has_key", "lib/daeso/thirdparty/GenericCache/decorators.py:synchronized", "lib/daeso/thirdparty/GenericCache/LRUStock.py:LRUStock"]}
{"id": "C54", "title": "The printed report of inter-annotator agreement", "statement": "For two or more annotators with different names and corpora of one length with known relations, the agreement report is written, and for every relation and measure it is exactly: a header, a table with one row and one column per annotator in sorted order whose cell in row t and column p is the score of p's corpus against t's recounted from the alignments (in percent, rounded to hundredths, blank on the diagonal), and below it the mean and the sample standard deviation of exactly the scores of each column and of all scores, the standard deviation printed as the exactly rounded square root. Columns are straight if no name is longer than 11 characters. The F tables are symmetric and the recall table is the transposed precision table. Annotators without names are called A1, A2, ... (Finding: a name of 12 or more characters always shifts its row.)", "quantifier": "all numbers of annotators, names, corpora, relations, orders of the tables, all non-negative rationals for the roots", "why_tests_cant": "Over all corpora and names; exact rounding of square roots over all rationals.", "anchors": ["lib/daeso/pgc/agreement.py:run_eval,write_tables,tableize,cross_evaluate,AnalysesTable,FormatAnalysesMatrix.write"]}
{"id": "C55", "title": "Converting a corpus from links by number to links by id", "statement": "Converting a parallel text corpus whose links name elements that have ids of their own rewrites it with links by id that align exactly the same pairs of elements, in document order of the sources; reading the result gives every element the partners it had; converting again changes nothing. A bad link or an unknown method raises its exception and leaves the corpus as it was. (Findings: if elements share an id, the alignment moves to another element without notice; if an aligned element has no id, the corpus file is emptied and lost.)", "quantifier": "all pairs of document trees, all links by number or id, all methods", "why_tests_cant": "Over all trees, ids and links.", "anchors": ["bin/ptc_n_to_id.py", "lib/daeso/ptc/document.py:HitaextDoc.inject_alignments,extract_alignments,write,add_id_alignment"]}
{"id": "C56", "title": "The table of aligned phrases", "statement": "Phrase extraction prints exactly one line per alignment of every graph pair of every corpus, in order: the source phrase, the relation and the target phrase with the delimiter between them (in verbose mode preceded by the paths of the graphbanks, the ids of the graphs and of the nodes). It stops with TypeError at the first alignment without tokens or relation, with the lines before it printed. With a one-character delimiter that does not occur in the columns, the output determines the phrases, tokens and relations of all alignments (and paths and ids if shown). (Findings: a blank delimiter, or a tab inside a token, makes different corpora print the same table; one node without tokens stops the program.)", "quantifier": "all corpora, alignments, tokens, delimiters, both modes", "why_tests_cant": "Over all corpora and token texts; reading back is injectivity over infinitely many outputs.", "anchors": ["bin/pgc_extract_phrases.py:extract_phrases", "lib/daeso/graph/daesograph.py:DaesoGraph.get_node_token_string"]}
{"id": "C57", "title": "Caching recursive functions", "statement": "Functions decorated with cached(), which may call themselves and each other and may raise and catch exceptions, return for every call exactly the value or exception of plain evaluation, and every call returns, whatever the size limit, the time to live, the clock and the other operations on the cache in between, as long as different calls have different keys. Only results of plain evaluation are stored, never failures. Without limits a function runs only for needed arguments and at most once for each argument for which it does not raise. The default keys are different for functions with different names. (Findings: functions of the same name that share a cache get each other's results; with default_fail=True a cached function never runs, every call raises KeyError.)", "quantifier": "all recursive functions (as trees of calls), arguments, cache settings, clocks, sessions", "why_tests_cant": "Over all functions, recursion patterns, evictions and sessions.", "anchors": ["lib/daeso/thirdparty/GenericCache/decorators.py:cached,default_marshaller", "lib/daeso/thirdparty/GenericCache/GenericCache.py:GenericCache.fetch_with_generator"]}
{"id": "C58", "title": "Printed alignments and score tables", "statement": "For two sequences that are not empty print_alignment writes a grid with the positions and elements above and to the left and a cross exactly at the aligned pairs; all lines have the same columns whatever the elements are, lines split at blanks if the elements are words, and the alignment can be read back. print_scores writes such a grid for every table with all its entries (KeyError otherwise, ValueError for an empty sequence) if scores are above -1000 and below 10000, with each score cut off to a whole number, and the scores can be read back up to that; every table returned by the aligners can be printed, and print_all_scores_and_alignments prints one part for each alignment. (Findings: fractional scores are cut off, so different tables print the same; longer scores run together.)", "quantifier": "all sequences, tables of scores and alignments, headers and trailers", "why_tests_cant": "Over all sequences, element texts, widths and tables.", "anchors": ["lib/daeso/string/needleman_wunsch.py:print_scores,print_alignment", "lib/daeso/string/waterman_eggert.py:print_all_scores_and_alignments"]}
{"id": "C59", "title": "Ordered directed graphs", "statement": "For every history of add_node, add_nodes_from, add_edge and add_edges_from on an ODiGraph: a call fails exactly when a bunch of edges contains a wrong tuple (AssertionError if the data is not a dict, NameError if the length is wrong), and then the tuples before it have been added; nodes are listed once each in order of first mention; successors and predecessors of a node are listed in order of first insertion of the edges, an unknown node is a KeyError; an attribute of an edge is the value given last for it, from either side; an attribute of a node is the value given last to it or to a node introduced by the same call of add_nodes_from. (Findings: nodes introduced by one call of add_nodes_from share their attributes, so changing one changes the others; a graph cannot be made from data and a tuple of wrong length is a NameError, because names are not imported.)", "quantifier": "all histories of calls, nodes and attributes", "why_tests_cant": "Over all histories of calls of any length.", "anchors": ["lib/daeso/graph/ograph.py:ODiGraph"]}
{"id": "C60", "title": "Making directories", "statement": "makedirs raises nothing. If no one else works on the disk, the directory and those on the way to it exist afterwards exactly if they existed or could be made, what existed and what is not on the way is unchanged, and a second call changes nothing. While other programs are at work that do not remove directories and do not get in the way, the directory exists afterwards, whatever directories they make in between. (Finding: all errors are swallowed, so it returns also if a file is in the way or nothing may be written, and the directory does not exist.)", "quantifier": "all paths, disks and actions of other programs between the system calls", "why_tests_cant": "Over all disks and all interleavings with other programs.", "anchors": ["lib/daeso/utils/opsys.py:makedirs"]}
{"id": "C61", "title": "The batch scripts", "statement": "pgc_from_ptc with unequal numbers of text corpora and graph banks says so and changes nothing. Otherwise it converts one after another, and however it ends it changes no file but the outputs: the base name of each text corpus with extension .pgc, in the current directory. It is ended exactly by the first job of which the conversion fails or the output cannot be opened, with the outputs of the jobs before it in place. If output names differ and the conversions do not read outputs, every text corpus has its output at the end. The options of pgc_stats and gb_stats count if they or -a are given, in any order and number. (Findings: text corpora with the same base name in different directories overwrite each other without warning; the -t option of pgc_stats is a usage error for every value.)", "quantifier": "all lists of files, disks, conversions that read the disk and may fail, and lists of options", "why_tests_cant": "Over all disks and failure points of a batch, and all command lines.", "anchors": ["bin/pgc_from_ptc.py", "bin/pgc_stats.py", "bin/gb_stats.py"]}
{"id": "C62", "title": "Tokens of nodes", "statement": "After any sequence of add_node, set_node_tokens and set_node_token_string, a node has the tokens it was given last, and other nodes theirs; setting tokens fails exactly for nodes that were never added. A token string that is set is what get_node_token_string returns, whatever text it is; that method never raises. Setting the token string to what it is keeps the tokens exactly if there are tokens and none contains a space. dump_alignments prints every alignment in order, up to one without a relation. (Findings: setting the token string of an empty node to its own token string makes it a punctuation node; add_nodes_from silently adds nothing.)", "quantifier": "all histories of calls, all token lists and texts, all alignments", "why_tests_cant": "Over all histories and texts; tests use a few token strings without odd spaces.", "anchors": ["lib/daeso/graph/daesograph.py:DaesoGraph", "lib/daeso/pgc/graphpair.py:dump_alignments"]}
{"id": "C63", "title": "Cache with arbitrary keys", "statement": "GenericCache with any objects as keys: after any history that returns, the size limit is kept and a lookup finds only a value stored for a key with the same string, neither removed nor assigned since and not expired; keys() gives one stored object for each stored string. If all stored keys hash as their strings the cache is exactly the cache of these strings, and has_key is right. Keys that cannot be hashed cannot be stored: TypeError, nothing changes. (Findings: for numbers and tuples has_key is always False, also right after the insert, assigning to a stored number in a full cache evicts another entry, and 1 and '1' share an entry.)", "quantifier": "all key types with any string function, all histories of calls, all clock readings, all limits", "why_tests_cant": "Over all histories and kinds of keys; tests use string keys.", "anchors": ["lib/daeso/thirdparty/GenericCache/GenericCache.py:GenericCache", "lib/daeso/thirdparty/GenericCache/GenericCache.py:CacheNode"]}
{"id": "C64", "title": "Pair objects", "statement": "== of two Pairs is True exactly if their contents are the same at all depths, None exactly if the first difference is between a Pair and something else, and otherwise False; it is an equivalence if == of the items is. It returns exactly if a pair does not contain itself, which is always so for pairs that are made but never changed. Unpacking Pair(s, t) gives s and t; set replaces both items, an assignment one, and pairs from which the changed one cannot be reached keep their contents. repr and str print the contents. (Findings: != compares identities, so two pairs can be both equal and unequal; equal pairs are different dict keys; set(source=x) resets the target.)", "quantifier": "all items with any ==, all histories of making and changing pairs, pairs nested to any depth and shared", "why_tests_cant": "Over all heaps of shared and nested pairs; tests compare a few flat pairs.", "anchors": ["lib/daeso/pair.py:Pair"]}
{"id": "C65", "title": "Stock of items in order of use", "statement": "LRUStock by itself: after any sequence of add, update, discard and clear, iteration, tolist, pop, len, in and str() show the specified list of occurrences. If no item is added while it is there, the items are distinct, in order of last use, and len is their number. A loop that discards each item it visits visits all items once and empties the stock. (Findings: adding an item that is there makes a second occurrence that only clear removes, and then len(stock) differs from len(list(stock)); pop does not remove; updating the items in a loop over the stock never ends if there are two or more.)", "quantifier": "all sequences of operations, all items", "why_tests_cant": "Over all histories, including changes during iteration, at the level of the linked nodes; tests try a few.", "anchors": ["lib/daeso/thirdparty/GenericCache/LRUStock.py:LRUStock"]}
{"id": "C66", "title": "Cached functions that call each other from several threads", "statement": "Functions decorated with cached() on any number of caches may call each other, from any number of threads. Every value returned is the value of the function computed without caches, under every schedule and whatever the caches drop meanwhile. If nothing is dropped and no function needs its own value, each function is computed at most once per key, over all threads. If calls only go to the same cache or to a cache later in a fixed order (in particular with one cache), then whenever a thread has not returned, some thread can move; no thread needs more steps than without caches; all threads can finish; and then all locks are free. (Finding: the lock of a cache is held while the function is computed, so functions of two caches that call each other's caches can deadlock: two threads then wait forever.)", "quantifier": "all sets of cached functions and call structures, all numbers of caches and threads, all schedules and evictions", "why_tests_cant": "Quantifies over all interleavings of all threads and evictions; tests run a few schedules, and deadlocks need particular ones.", "anchors": ["lib/daeso/thirdparty/GenericCache/decorators.py:cached,synchronized", "lib/daeso/thirdparty/GenericCache/GenericCache.py:fetch_with_generator"]}
{"id": "C67", "title": "Printed matrices", "statement": "print_matrix writes one line for each row of a matrix of positive integers, the numbers right-aligned in fields of one width, which is that of the longest number; rows with equally many numbers give equally long lines; and what is written determines the matrix (whatever rounding log10 has). (Findings: a value of zero or less, such as a padded cell or an ordinary zero cost, raises ValueError after the message was written; an empty row is written as a closing bracket only.)", "quantifier": "all matrices of integers with rows of any lengths, all messages", "why_tests_cant": "Unbounded matrices and numbers, and injectivity of the layout relates all pairs of matrices.", "anchors": ["lib/daeso/thirdparty/munkres.py:print_matrix"]}
{"id": "C68", "title": "String measures agree", "statement": "The measures of daeso.string agree with each other. needleman_wunsch with 0 for equal elements and -1 for mismatches and gaps has minus the levenshtein distance of the prefixes in every entry of its table, and its alignment is an edit script of the length of the distance; with 1 for equal elements and no costs the entries are the lengths of the lcs of the prefixes and the aligned elements are a longest common subsequence of both; with -2 and -1 the score is minus the number of elements outside the lcs. smith_waterman with 1/0 and no gap cost aligns as many equal elements as the lcs has and raises IndexError exactly if the sequences have no common element. max(len) - len(lcs) <= levenshtein <= len(s1) + len(s2) - 2 len(lcs).", "quantifier": "all pairs of sequences over any type with equality", "why_tests_cant": "Relates four algorithms on all pairs of sequences of unbounded length.", "anchors": ["lib/daeso/string/needleman_wunsch.py:needleman_wunsch", "lib/daeso/string/smith_waterman.py:smith_waterman", "lib/daeso/string/levenshtein.py:levenshtein", "lib/daeso/string/lcs.py:lcs"]}
{"id": "C69", "title": "Command lines of the scripts", "statement": "The command line of every script in bin/ is parsed as documented by argparse. Whatever the arguments, parse_args returns names with values, or the script exits after help, version or a usage error; no other exception is raised and parsing ends. Returned values come from a reading of the whole line from left to right: options as they are spelled (in full, by an unambiguous prefix, with a value attached, several letters in one string), each followed by as many strings as it takes, and each argument without option once, in order; any other name has its default. Options, then operands, then options are read exactly as written, the operands dealt out greedily from the left, and this decides help, version and conversion errors too; after -- everything is an operand and further -- are dropped. No string before -- is accepted that is neither an operand nor an unambiguous option. pgc_stats cannot be given a threshold.", "quantifier": "all argument lists of any length, all parsers made of arguments with one, any number, at least one or n strings, stored, appended, flags, help and version, hence all fifteen scripts", "why_tests_cant": "Ranges over all command lines; the greedy matching of patterns with backtracking interacts with option positions, abbreviations and --.", "anchors": ["lib/daeso/thirdparty/argparse.py:ArgumentParser.parse_args", "lib/daeso/utils/cli.py:DaesoArgParser", "bin/pgc_diff.py", "bin/pgc_cp.py", "bin/pgc_stats.py"]}
{"id": "C70", "title": "Waiting for output of a child process", "statement": "spawn.expect_exact() searches each new piece of output only once, but returns what searching everything read so far after every piece would give: the string that begins first, of those the leftmost in the list, else EOF or TIMEOUT by the last place in the list or as an exception, after the first piece, time-out or end that decides it; expect() with compiled patterns likewise. before, after and buffer together are exactly what was read, in order, with any search window. If no search string is inside another one, the result, the attributes and what later calls see depend only on the output, not on how it is cut into pieces or when they come within the timeout. A search window not smaller than the longest string plus the longest piece changes nothing. read(n) returns the next n bytes or all that is left, read() everything, readline() the next line with its CRLF, readlines() the lines, and the rest of the output stays to be read.", "quantifier": "all outputs, all ways to cut them into pieces, all times, timeouts, errors and ends of the output, all lists of strings or regular expressions, all window sizes", "why_tests_cant": "Ranges over all schedules of a child process; which piece holds a match, and the offset for searching again only the new part, depend on the cut.", "anchors": ["lib/daeso/thirdparty/pexpect.py:spawn.expect_loop", "lib/daeso/thirdparty/pexpect.py:searcher_string", "lib/daeso/thirdparty/pexpect.py:searcher_re", "lib/daeso/thirdparty/pexpect.py:spawn.readlines"]}
{"id": "C71", "title": "Running a command", "statement": "split_command_line() reads a line as arguments separated by space, each a sequence of plain characters, characters after a backslash and quoted parts; every string is such a line, so every string has a definite reading; space at the beginning counts as an empty argument, an empty last argument does not count, and a quotation left open ends with the line. Non-empty arguments that are escaped or quoted and joined with blanks come back unchanged. which() returns the name itself if it has a slash and can be executed, else the first path in the directories of the search path that can be executed, else None; the child gets this path and the other arguments unchanged. run() with events for texts returns what the child wrote, every byte once and in order, up to the end, the time-out, or the match at which a response stops it, in whatever pieces the output comes, and ends if no event matches the empty text.", "quantifier": "all strings, all lists of arguments, all search paths and sets of executable files, all lists of events and responses, all outputs and ways to cut them into pieces", "why_tests_cant": "Ranges over all strings of special characters and all schedules of output; the accumulation in run() is right only because of what before, after and buffer hold after each event.", "anchors": ["lib/daeso/thirdparty/pexpect.py:split_command_line", "lib/daeso/thirdparty/pexpect.py:which", "lib/daeso/thirdparty/pexpect.py:run"]}
{"id": "C72", "title": "Usage", "statement": "The usage a script shows with its help and before every error of its command line never fails to be made, for whatever name of the program and width of the screen (COLUMNS minus 2, else 78): it is one line if that fits; otherwise there is exactly one layout: as many units (an option in brackets with the names of its values; a value of an argument without option) on each line as fit, below each other after the name of the program, or on the lines below it if the name takes more than three quarters of a line, operands on a new line; no unit is broken, lost or moved, no line is longer than the width unless it holds one unit or only the name of the program; the words are the same for every width. This holds for all parsers whose names have no space and no brackets, and all scripts' parsers are of this kind. An error shows the usage, then the message, and exits with status 2.", "quantifier": "all parsers with well-formed names, all names of programs without newline, all values of COLUMNS, all widths including negative ones", "why_tests_cant": "The layout goes through four regular expressions, an assertion, and a greedy loop that depends on the width: tests can only try some widths and parsers.", "anchors": ["lib/daeso/thirdparty/argparse.py:HelpFormatter._format_usage", "lib/daeso/thirdparty/argparse.py:HelpFormatter._format_actions_usage", "lib/daeso/thirdparty/argparse.py:ArgumentParser.error"]}
{"id": "C73", "title": "Child processes", "statement": "Whatever is called on a spawned child, in whatever order, and whatever the child does in between (stops, continues, exits, is killed): after its end was collected it is never asked for or signalled again (the number may be that of another process by then); terminated is set exactly when the end was collected, and exitstatus or signalstatus tell that end, which is one of the child itself or the SIGKILL that was sent; from then on isalive is False, terminate True, kill does nothing, wait raises. isalive answers True only for a child that is alive and False only for one that has ended, notices every end, never fails, and blocks only after EOF was read, while the child lives. terminate answers True iff the child has ended, sends HUP, CONT, INT in this order and KILL only if forced, and if forced always succeeds when the signals may be sent; it does not raise. When close returns, the child has ended and its descriptor was closed exactly once; if forced it succeeds. wait returns the exit code of the end.", "quantifier": "all sequences of calls of isalive, wait, kill, terminate and close and of reads that raise EOF, all schedules of what happens to the child before each system call, all sets of signals that may be sent", "why_tests_cant": "What happens between two system calls is a race; a test sees one schedule.", "anchors": ["lib/daeso/thirdparty/pexpect.py:spawn.isalive", "lib/daeso/thirdparty/pexpect.py:spawn.terminate", "lib/daeso/thirdparty/pexpect.py:spawn.close", "lib/daeso/thirdparty/pexpect.py:spawn.wait", "lib/daeso/thirdparty/pexpect.py:spawn.kill"]}
{"id": "C74", "title": "Sending and interact", "statement": "While the user interacts with a child, what is typed reaches the child completely and in order, however it is cut into pieces by reading and writing, up to the escape character, which is not sent if it is read at most once at a time; a child that ends meanwhile has got the first part of that; what the child writes is shown after the buffer, and goes to the log, completely as far as the terminal takes it; however interact ends (escape, end of the child, an exception) the terminal is set back. send returns the number of characters that the child got, at least one; sendline ends the line; sendcontrol sends the character with the last five bits, or DEL for a question mark, and nothing for others; the logs get everything.", "quantifier": "all sequences of reads from the child and the user, all filters, all escape texts, all numbers of characters that writes accept, all moments at which the child ends, all strings and characters", "why_tests_cant": "How the input is cut into reads and how much a write accepts depends on timing and buffers; a test at a terminal sees one way.", "anchors": ["lib/daeso/thirdparty/pexpect.py:spawn.interact", "lib/daeso/thirdparty/pexpect.py:spawn.send", "lib/daeso/thirdparty/pexpect.py:spawn.sendline", "lib/daeso/thirdparty/pexpect.py:spawn.sendcontrol", "lib/daeso/thirdparty/pexpect.py:spawn.writelines"]}
{"id": "C75", "title": "Reading from a child", "statement": "However much is asked for, with whatever time-outs, and whatever happens meanwhile (output in any pieces, signals, the end of the child, the terminal being hung up), reading returns the output in order, without loss or repetition, and logs exactly that. What is there is returned at once, even after the child has ended. TIMEOUT is raised exactly after the time-out, and then there is nothing to read and the child lives; EOF only if there is nothing to read and the child has ended or hung up, and in the second case all output has been returned. Until EOF, a read with a time-out returns in time in spite of signals, and one without blocks only if nothing more will happen.", "quantifier": "all sequences of reads with all sizes and time-outs, all schedules of output, signals, ends and time, all numbers of characters that os.read gives", "why_tests_cant": "Which of three tests of the child and three calls of select sees an event depends on timing.", "anchors": ["lib/daeso/thirdparty/pexpect.py:spawn.read_nonblocking", "lib/daeso/thirdparty/pexpect.py:spawn.__select"]}
{"id": "C76", "title": "Echo mode", "statement": "setecho sets the echo flag of the terminal, so that getecho tells it, and changes no other flag or attribute. waitnoecho with a time-out answers True at the first of the looks every 0.1 seconds that finds the echo off, and False if it was on at all looks until the time-out had passed, between 0.1 and 0.2 seconds after it; without a time-out it is never False and ends when the echo is found off.", "quantifier": "all attributes of a terminal, all courses of the echo flag over time, all time-outs from 0 on, all times of starting", "why_tests_cant": "The course of the flag over time is not under the control of a test.", "anchors": ["lib/daeso/thirdparty/pexpect.py:spawn.getecho", "lib/daeso/thirdparty/pexpect.py:spawn.setecho", "lib/daeso/thirdparty/pexpect.py:spawn.waitnoecho"]}
{"id": "C77", "title": "Help", "statement": "The help of a program shows the usage, the description, all operands, all options and the epilog, in this order, each argument once: at column 2 an operand's label or all spellings of an option with its values, and, on the same line if that leaves two blanks, all of the help text, with every %(name)s filled in, in lines of a right column that is the same for all arguments, starts at 24 at most and does not exceed the line. There are no two empty lines together and none at either end. Help is shown exactly if the usage can be laid out and every help text can be filled in, is not blank, and the right column is within the line; otherwise asking for help raises an exception.", "quantifier": "all parsers without suppressed arguments, all names without line ends, help texts, attributes, descriptions, epilogs, widths of the line, all ways of wrapping that keep what can be seen", "why_tests_cant": "The layout depends on the longest argument, on the width of the terminal and on the wrapping of every text.", "anchors": ["lib/daeso/thirdparty/argparse.py:HelpFormatter.format_help", "lib/daeso/thirdparty/argparse.py:HelpFormatter._format_action", "lib/daeso/thirdparty/argparse.py:ArgumentParser.format_help", "lib/daeso/utils/cli.py:DaesoArgParser"]}

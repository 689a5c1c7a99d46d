#!/usr/bin/env python3
"""Regenerates /verif/properties.jsonl from the table below (documentation only)."""
import json
P = []
def p(id, title, statement, quantifier, why, *anchors):
    P.append(dict(id=id, title=title, statement=statement, quantifier=quantifier,
                  why_tests_cant=why, anchors=list(anchors)))
L = "lib/daeso/"
p("C01","levenshtein() is the true edit distance",
  "levenshtein(s1, s2) returns the length of the shortest script of single-element insertions, deletions and substitutions that turns s1 into s2, for any two sequences over any alphabet.",
  "all pairs of finite sequences over any element type with decidable equality",
  "A minimum over an infinite set of edit scripts; tests only compare a handful of strings with known distances.",
  L+"string/levenshtein.py:levenshtein")
p("C02","levenshtein() is a metric with the standard bounds",
  "levenshtein is 0 exactly on equal sequences, symmetric, satisfies the triangle inequality, and lies between the difference of the two lengths and the longer length.",
  "all pairs and triples of finite sequences",
  "The triangle inequality ranges over all triples; sampling cannot establish it.",
  L+"string/levenshtein.py:levenshtein")
p("C03","normalized_levenshtein() lies in [0,1]",
  "normalized_levenshtein(s1,s2) never fails, is between 0 and 1 inclusive, is symmetric, is 0 exactly for equal sequences, and returns 0.0 for two empty sequences (the caught division by zero).",
  "all pairs of finite sequences",
  "Range and division-by-zero claims quantify over all inputs including the empty ones.",
  L+"string/levenshtein.py:normalized_levenshtein")
p("C04","lcs() returns a longest common subsequence",
  "lcs(seq1, seq2) terminates without a key error and returns a sequence that is a subsequence of both arguments and at least as long as every common subsequence.",
  "all pairs of finite sequences",
  "Maximality ranges over exponentially many subsequences; the back-trace loops could leave the table only for particular inputs.",
  L+"string/lcs.py:lcs")
p("C05","normalized_lcs() lies in [0,1] and is symmetric",
  "normalized_lcs(seq1, seq2) never fails, lies in [0,1], is symmetric in its arguments, equals 1 for equal non-empty sequences and 0 when a sequence is empty.",
  "all pairs of finite sequences",
  "Quantifies over all inputs; symmetry is not evident because lcs itself is not symmetric.",
  L+"string/lcs.py:normalized_lcs")
p("C06","n-gram extraction is exact",
  "n_gram_slices(tokens, n) for n >= 1 lists exactly the contiguous length-n windows of the token sequence, in order of position, each position once (so max(0, len-n+1) of them); padding adds exactly the stated pad symbols on each side; n_gram_slices_range returns, for every n in the range, the same thing.",
  "all token sequences, all n, all pad sizes",
  "Universally quantified over lengths and n, including n greater than the sequence length.",
  L+"string/ngram.py:n_gram_slices", L+"string/ngram.py:n_gram_slices_range", L+"string/ngram.py:pad")
p("C07","skip-bigrams are exactly the ordered pairs within the skip limit",
  "skip_bigram_slices(tokens, limit) lists exactly the pairs (tokens[i], tokens[j]) with i < j and at most `limit` tokens in between, each position pair once, in lexicographic order of positions; with an unbounded limit their number is n(n-1)/2.",
  "all token sequences and limits",
  "Set equality over all position pairs for all lengths.",
  L+"string/sgram.py:skip_bigram_slices")
p("C08","set_median_string() returns a member of minimal summed distance",
  "For a non-empty list of strings and a symmetric distance that is zero on the diagonal, the result is an element of the list whose total distance to all elements is minimal, and it is the first such element; for an empty list the call fails.",
  "all non-empty lists and all symmetric distance functions",
  "Optimality over all candidates and over all distance functions.",
  L+"string/median.py:set_median_string")
p("C09","ROUGE scores: range and failure behaviour",
  "rouge_ngram counts, with multiplicity, the candidate n-grams that occur in the references over the number of reference n-grams; rouge_l and rouge_s are in [0,1] whenever they return; which inputs raise ZeroDivisionError is characterised. (The plain expectation that rouge_n <= 1 is false of the code.)",
  "all candidate/reference token lists, all n, limits and beta",
  "Range claims over all inputs and multiplicities; a score above 1 needs repeated n-grams that tests do not contain.",
  L+"string/rouge.py:rouge_n", L+"string/rouge.py:rouge_l", L+"string/rouge.py:rouge_s", L+"string/rouge.py:count_match")
p("C10","Set similarity measures: range, symmetry, identity",
  "cosine, tanimoto, dice, jaccard, overlap_min, overlap_max and the generalized versions are total, symmetric, lie in [0,1], are 1 for two equal duplicate-free non-empty sequences, 0 for disjoint ones; generalized measures on two sequences agree with the binary ones.",
  "all pairs (lists) of finite sequences",
  "Laws over all sequences, including duplicates which shrink the intersection but not the lengths.",
  L+"string/similar.py")
p("C11","Needleman-Wunsch alignment is optimal",
  "With any element scoring function and a constant gap cost, the score computed by needleman_wunsch is the maximum score of any global alignment of the two sequences, and the returned alignment achieves it, is strictly increasing in both coordinates, and covers only valid positions.  With a gap cost that depends on the element this is false: the first row/column charges gap_cost(seq[i-1])*i.  Ties are broken in a fixed way: of equally good last steps the table keeps leaving out an element of the first sequence, then of the second, and aligns only if that is strictly better.",
  "all sequence pairs, all scoring functions, all constant gap costs",
  "Optimality over all alignments and scoring functions.",
  L+"string/needleman_wunsch.py:needleman_wunsch")
p("C12","Smith-Waterman local alignment is optimal",
  "For any scoring function and any element-dependent non-positive gap cost, smith_waterman returns a local alignment whose score is maximal among all local alignments whenever some positive score exists, and fails with IndexError otherwise.  Ties are broken in a fixed way (up, end, left, diagonal), and with negative gap costs the alignment ends at the last position with the best score.",
  "all sequence pairs, all scoring and gap functions",
  "Optimality over all local alignments.",
  L+"string/smith_waterman.py:smith_waterman")
p("C13","Waterman-Eggert: limited searches end, the first alignment is a best one, later ones may overlap or never stop coming",
  "With a limit, waterman_eggert always ends and returns at most that many alignments, each increasing in both coordinates and within the sequences; the first is a best local alignment (and there is none exactly if no local alignment has a positive score).  The documented claims that alignments do not intersect and that without limit all of them are returned are false: alignments can share a pair, and the search can go on for ever with empty alignments.",
  "all sequence pairs, scoring functions, non-positive gap costs and limits",
  "The in-place matrix recomputation has long-range effects that examples do not exercise; non-termination cannot be observed by a test.",
  L+"string/waterman_eggert.py:waterman_eggert", L+"string/waterman_eggert.py:recalculate_matrix")
p("C14","Document and term frequencies are exact",
  "calculate_document_frequencies counts for every term the number of documents containing it, and calculate_term_frequencies lists the distinct terms in strictly increasing order with the exact number of occurrences of each term in each document; idf weights are ln(docs/df), between 0 and ln(docs) and 0 exactly for terms in every document, tf*idf weights are relative frequency (or presence) times idf, normalization brings both into [0,1]; the normalized variants fail with ValueError for an empty collection and with ZeroDivisionError for a single non-empty document.",
  "all document collections",
  "Counting laws for arbitrary collections.",
  L+"string/tf_idf.py:calculate_document_frequencies", L+"string/tf_idf.py:calculate_term_frequencies", L+"string/tf_idf.py:idf", L+"string/tf_idf.py:tf_idf")
p("C15","spell_out_number() reads a number group by group, almost unambiguously",
  "For every integer below 10^24 spell_out_number returns the readings of its groups of three digits with their magnitudes (hundreds form for four-digit numbers with a non-zero second digit, if preferred); two such integers get the same words exactly if they are equal or differ only in having 0 or 1 thousand below some millions (so the words are unambiguous below a million, and not in general: 1000000 and 1001000 collide); every multiple of 1000 ends in 'nul'; integers of 10^24 and above raise IndexError and negative ones an error.",
  "all integers",
  "Injectivity over 10^24 inputs and an exact characterisation of its failures.",
  L+"string/number.py:spell_out_number", L+"string/number.py:_digit_triple_to_words")
p("C16","OrderedDict behaves as an insertion-ordered map",
  "After any sequence of set/delete/clear/pop/popitem/setdefault/update operations an OrderedDict iterates over exactly the present keys, each once, in order of first insertion since last removal; lookups return the last value assigned; popitem removes and returns the last inserted pair.",
  "all operation histories",
  "Histories of unbounded length; agreement of the key list and the hash table is an invariant.",
  L+"thirdparty/odict.py:OrderedDict")
p("C17","Counter is a multiset with the documented algebra",
  "Missing keys count 0, update adds multiplicities, elements() repeats each key by its count, + - | & produce the pointwise sum, truncated difference, maximum and minimum restricted to positive results, and most_common lists all counts in non-increasing order.",
  "all iterables, all pairs of counters (including negative counts)",
  "Pointwise laws for every key and all counter contents.",
  L+"thirdparty/counter.py:Counter")
p("C18","GenericCache never serves a wrong or expired value and respects its size",
  "A fetch returns the most recently inserted value for that key if it has not been removed, evicted or expired, and the default otherwise; with a maximum size of at least 1 the number of entries never exceeds the maximum after an insert that returns.",
  "all histories of insert/fetch/remove/collect operations and clock readings",
  "Histories and clocks are unbounded.",
  L+"thirdparty/GenericCache/GenericCache.py", L+"thirdparty/GenericCache/LRUStock.py")
p("C19","GenericCache eviction: least recently used first, unless a stored key was overwritten",
  "For every history of calls the answers, the stored keys, the order of use and whether a call returns at all are determined as follows: every stored key has a mark in order of last use; inserting a key that is still stored leaves its old mark behind until clear(); making room removes the key of the oldest mark, and never returns when that key is no longer stored. So: if no stored key is inserted again, a full cache that takes a new key evicts exactly the least recently used entries and every call returns; without a size limit overwriting is harmless; with a limit, inserting a key twice and then limit+1 other keys always blocks (finding).",
  "all histories of fetch, insert, remove, clear, collect, reconfigure and fetch_with_generator, all limits, lifetimes and clock readings",
  "Needs a particular history (overwrite, then eviction) to fail; a proof must consider every history.",
  L+"thirdparty/GenericCache/GenericCache.py:insert", L+"thirdparty/GenericCache/LRUStock.py:LRUStock")
p("C20","Munkres.compute returns a perfect matching of the smaller side",
  "compute() returns pairs (row, column) inside the given matrix in which every row and every column occurs at most once, and exactly min(rows, columns) of them.",
  "all rectangular integer cost matrices with at least one row and column",
  "The algorithm's state machine may run through arbitrarily many primed/covered configurations.",
  L+"thirdparty/munkres.py:Munkres.compute")
p("C21","Munkres.compute returns a minimum-cost assignment",
  "The sum of the costs of the returned pairs is at most that of any other assignment of the same size.",
  "all cost matrices, all competing assignments",
  "Optimality over n! assignments.",
  L+"thirdparty/munkres.py:Munkres.compute")
p("C22","Munkres.compute terminates",
  "For every rectangular integer cost matrix, whatever the size of its entries (even above sys.maxint), the state machine reaches its final state.",
  "all integer cost matrices",
  "Termination is a liveness property; no finite test can show it.",
  L+"thirdparty/munkres.py:Munkres")
p("C23","DaesoGraph keeps successor and predecessor tables consistent and ordered",
  "After any sequence of add_node/add_edge operations each edge is listed exactly once on both sides with the same label, only between existing nodes, and successors are listed in order of first insertion.",
  "all operation histories",
  "An invariant over histories of unbounded length.",
  L+"graph/ograph.py:ODiGraph.add_edge", L+"graph/daesograph.py:DaesoGraph.add_edge")
p("C24","terminal_yield() lists each reachable terminal once, in left-to-right order",
  "terminal_yield(n) returns every terminal node reachable from n exactly once; on a tree the order is the left-to-right depth-first order of the leaves; it terminates on cyclic graphs.",
  "all finite graphs and start nodes",
  "Reachability closure over arbitrary graphs, including re-entrant ones.",
  L+"graph/daesograph.py:DaesoGraph.terminal_yield")
p("C25","A graph pair never aligns a node twice",
  "After any sequence of add_align/del_align on a GraphPair each source node is aligned to at most one target node and vice versa, add_align(n1,n2) replaces exactly the alignments of n1 and n2, and all other alignments are unchanged.",
  "all operation histories",
  "Invariant and frame condition over unbounded histories.",
  L+"pgc/graphpair.py:GraphMatching.add_align", L+"pgc/graphpair.py:GraphMapping.del_align")
p("C26","Alignment lookup agrees with the alignment history",
  "get_align returns the label of the last add_align of that pair not since deleted or displaced and None otherwise; alignments() lists each stored alignment exactly once; a relation filter lists exactly those with that relation; deletion leaves no isolated node behind.",
  "all operation histories",
  "Refinement of a partial map over all histories.",
  L+"pgc/graphpair.py:GraphMapping")
p("C27","Corpus list operations keep the corpus compatible and list-like",
  "Slicing, concatenation, repetition and extension of a ParallelGraphCorpus act on the graph pairs like the same list operations, keep relations and meta data, and refuse incompatible operands without changing anything.",
  "all corpora and indices",
  "Algebraic laws over all lists and slice bounds.",
  L+"pgc/corpus.py:ParallelGraphCorpus")
p("C28","purge() makes equal graph banks one object",
  "When corpus.purge() returns, every graph pair of the corpus holds the first bank, in corpus order, that is the same file as the bank it held before, so that no two bank objects for one file remain in use.  It raises OSError exactly when two different paths are in use of which one does not exist, and even then no pair refers to another file than before and pairs outside the corpus are untouched.  purge(graph_pair) is limited to that pair, except that the limit is ignored for a pair without alignments.",
  "all corpora, sharing patterns, file systems and dict orders",
  "Quantifies over all sharing patterns between banks and pairs, repeated pairs, links between files and the order in which a dict lists its values.",
  L+"pgc/corpus.py:ParallelGraphCorpus.purge", L+"gb/graphbank.py:GraphBank.__eq__")
p("C29","A parallel graph corpus survives writing and reading",
  "Reading (without loading graphs) the XML that was written for a corpus gives back its relations, its meta data and every graph pair, in order, with the same graph ids, alignments, meta data and banks (path and format of the first bank in use on the same file; relative paths lead back to the bank), and no warnings.  Two references lead to one bank object exactly if they were banks on the same file.  Writing raises OSError exactly if two different bank paths are in use of which one does not exist.  Meta data without children is lost, and meta data with a reserved tag inside can make the file unreadable.",
  "all corpora with stripped relations, real paths, non-empty formats and meta data free of reserved tags; both kinds of paths; all dict orders",
  "A round trip over all corpora, sharing patterns of banks and relative positions of files.",
  L+"pgc/corpus.py:PGCGenerator", L+"pgc/corpus.py:PGCParser")
p("C30","pgc_diff reports every chosen alignment exactly once, under the right heading",
  "If pgc_diff returns, it has printed one block per graph pair; the items are numbered 1, 2, 3, ... throughout; each block lists, once each and ordered by source node within a section, exactly the alignments (of the chosen relations) that are identical (if asked for), have a different relation, or occur in only one corpus, each with the relations of both corpora.  Without a filter these verdicts partition the alignments of the two corpora and are mirrored when the corpora are exchanged.  It returns whenever the corpora have the same length and graphs and integer source node ids.  With a filter it is not symmetric; words_only fails or reports the wrong alignments.",
  "all corpora, alignment histories and relation filters",
  "Set-theoretic partition over all alignment sets.",
  L+"pgc/diff.py:pgc_diff", L+"pgc/diff.py:print_alignments")
p("C31","Alignment evaluation counts and scores are consistent",
  "For every relation, common <= min(true, pred); precision, recall and F are in [0,1]; F lies between precision and recall; exchanging true and predicted exchanges precision and recall; comparing a corpus to itself gives precision = recall = 1 for each relation that occurs; the any-relation totals are the sums over relations; precision is common/pred and recall common/true (0 if undefined), F is the weighted harmonic mean, macro means are averages over the rows, micro means are computed from summed counts, and variances divide by n - 1.",
  "all true/predicted corpora and beta in [0,1]",
  "Arithmetical facts over all counts.",
  L+"pgc/evaluate.py:AlignEval", L+"pgc/evaluate.py:AlignCounts")
p("C32","Inter-annotator agreement averages",
  "For N >= 2 annotators with different names, each of the N*(N-1) ordered pairs is compared exactly once; the cell of true annotator t and predicting annotator p is the measure of evaluating p's corpus against t's; each column mean (SD) and the overall mean (SD) are the mean (sample deviation) of exactly the scores off the diagonal, so they lie between the smallest and largest score; the recall table is the precision table transposed, with the same overall mean; fewer than two annotators raise ZeroDivisionError; the words-only option keeps exactly the alignments between two terminals.",
  "all annotator lists, corpora of equal length, relations and measures",
  "Holds for every number of annotators and every corpus; a test fixes a few tables.",
  L+"pgc/agreement.py:cross_evaluate", L+"pgc/agreement.py:tableize", L+"pgc/agreement.py:AnalysesTable", L+"pgc/agreement.py:read_corpora")
p("C33","Indexed elements slice the document text correctly",
  "After index_elem on an element tree, for every element not under an ignored element, text[_start:_end] equals the concatenated text of that element's own subtree, and the _n numbers of elements with one tag are 1,2,3,... in document order, ignored or not; the tag tables find every element back by number, and by id the last one with that id.  (Refuted: not every element inside an ignored one is marked _ignore, and re-rendering leaves stale positions.)",
  "all element trees and ignore settings",
  "Structural induction over arbitrary trees.",
  L+"ptc/ielemtree.py:index_elem", L+"ptc/ielemtree.py:get_elem_text")
p("C34","Alignment link injection and extraction are inverse",
  "Extracting the alignments of a parallel text corpus as id or n pairs and injecting them again restores every source element's alignments, provided the aligned ids are unique per tag; injecting links and extracting them again gives the same links grouped by source element in document order, hence unchanged if they were in that order.  A link to an unknown tag or id, a number out of range or an unreadable number raises the corresponding exception of the first bad link; numbers 0, -1, ... count from the end (finding), and a shared id means the last element with it.",
  "all documents and alignments",
  "Round-trip over all documents.",
  L+"ptc/document.py:HitaextDoc.inject_alignments_n", L+"ptc/document.py:HitaextDoc.extract_alignments_n")
p("C35","no_cross_filter() returns a non-crossing greedy alignment",
  "The returned pairs never cross, all have score at least the threshold, no pair is returned that was not offered, and every offered pair at or above the threshold that is left out crosses a returned pair of at least its own score.",
  "all score tables and thresholds",
  "Pairwise property over all selections.",
  L+"ptc/textalign.py:no_cross_filter")
p("C36","Re-aligning only replaces the links of the aligned tags",
  "clear_alignments keeps, in order, exactly the links that neither start at the source focus tag nor end at the target focus tag; _create_alignments adds each pair at most once; align_corpus keeps the alignments of all elements without the source focus tag and only adds links between focus elements inside aligned scope elements.",
  "all link lists",
  "Universal over all link lists.",
  L+"ptc/textalign.py:TextAligner._create_alignments", L+"ptc/textalign.py:clear_alignments")
p("C37","Weighted cosine similarity lies in [0,1]",
  "For non-negative weights the weighted cosine similarity of two texts is between 0 and 1, symmetric, and total.",
  "all weight vectors",
  "Cauchy-Schwarz over all vectors.",
  L+"ptc/textalign.py:weighted_cosine_sim")
p("C38","etree equality is an equivalence and ignores layout",
  "equals(e1,e2) decides, for elements with ASCII texts, whether tag, stripped text, stripped tail, attributes and recursively the children agree; it is reflexive, symmetric and transitive, and raises only (a UnicodeEncodeError) for texts that are not ASCII. indent() replaces exactly the blank texts of elements with children and the blank tails below the root by line breaks with the right indentation, changes nothing else and is idempotent. A tree equals its indented form exactly when no replaced text was missing (None prints as 'None'). (A text of non-breaking spaces is lost.)",
  "all element trees",
  "Induction over arbitrary trees.",
  L+"utils/etree.py:equals", L+"utils/etree.py:indent")
p("C39","Corpus statistics add up",
  "The row pgc_stats makes for a corpus counts exactly the graph pairs that the options keep (those with failed parses, those with unaligned roots) and among their alignments the node pairs that are not skipped as empty or punctuation, per relation; the rows of the banks count exactly the kept graphs, how often they are aligned, their tokens and nodes. Node pairs = sum of the five relations; graphs = aligned + unaligned; aligned = single + multiple; nodes = aligned + unaligned; percentages are the counts divided, within 0..100 (the relations together 100), in rows and overall. Options that leave out less only add; the order of pairs and graphs does not matter. Counting fails exactly for a counted link with a missing node or an unknown relation, or for a threshold. (PGFP can exceed 100 when unaligned graphs are left out; a graph in many pairs may count as single aligned.)",
  "all graph banks, corpora and options",
  "Accounting identities over arbitrary corpora, option combinations and orders.",
  L+"gb/gbstats.py", L+"pgc/pgcstats.py", L+"graph/daesograph.py:node_is_empty,node_is_punct")
p("C40","Statistics tables sum, grow and survive being written and read",
  "A new statistics table has exactly the columns its definition names, in that order, with the given number of empty rows (IndexError for a line with a label but no type). Summarising gives each count column the sum of its rows as overall and changes nothing else; growing keeps the earlier rows and adds empty ones. A written table has a header, a line of dashes, one line per row, dashes and a line with the overalls (counts as integers, other numbers to two decimals), and optionally a numbered legenda. Reading it into a table with the same columns appends exactly the written rows, with strings and counts unchanged and other numbers rounded to hundredths, provided strings are words that do not look like a line of dashes and numbers have at most seven characters; nothing after the second line of dashes matters, and reading fails only with EOFError or ValueError. (Names with blanks or leading dashes and counts of eight digits are not read back; a table without columns cannot be read.)",
  "all definitions, tables, texts and row sequences",
  "Over all row sequences, numbers and texts.",
  L+"stats/table.py", L+"gb/gbstats.py:GbStatsTable", L+"pgc/pgcstats.py:PgcStatsTable")
p("C41","pgc_split partitions a corpus and pgc_join undoes it",
  "pgc_split writes consecutive non-empty pieces of the corpus, all of the chosen size except perhaps the last, into files named after the positions of their first and last pair; the names differ from each other and from the input. Without a size at most the requested number of files is written; the only failure is zero parts, and negative numbers write nothing. pgc_join takes the files in alphabetical order and fails exactly for no files or differing relations; it restores a split corpus of fewer than 10000 pairs whatever order the files are found in. (Larger corpora come back out of order; the number of parts can be smaller than requested.)",
  "all corpora, sizes, part counts and file orders",
  "Arithmetic over all lengths and part counts, and all permutations of files.",
  "bin/pgc_split.py", "bin/pgc_join.py", L+"utils/opsys.py:multiglob")
p("C42","Sparse graph banks resolve every stub to one shared graph",
  "Reading a parallel graph corpus without its graphs gives all pair sides that ask for the same graph of the same bank one shared stub carrying its id. Loading the graphs sparsely succeeds exactly if all bank files can be read, contain every graph asked for, and no pair asks for the same graph twice (otherwise DaesoError, or AssertionError for such a pair); then every side is bound to a graph with the content of the file, two sides share a graph object exactly if they ask for the same graph, the bank returns that same object and KeyError for graphs nobody asked for, only the graphs asked for were made, and the result is the same as that of loading everything.",
  "all requests, bank files, and orders in which the banks and their dictionaries are traversed",
  "History property with sharing, over all corpora and dictionary orders.",
  L+"gb/graphbank.py:SparseGraphBank", L+"gb/graphstub.py", L+"gb/parser.py", L+"pgc/corpus.py:PGCParser")

p("C43","GraphML graph bank parsing reproduces the file",
  "Reading a bank file succeeds exactly if all keys are declared properly, every wanted graph is acceptable (id; known data keys; labels and tokens; edges between nodes given before) and, in sparse mode, every requested id occurs; otherwise it raises KeyError, DaesoError, TypeError or ValueError. It then makes one graph object per wanted element in file order, with the nodes and edges in order of first occurrence and the last value given for each attribute, and each id gives the object of the last element with that id. Sparse loading finds the same elements as full loading. Unwanted graphs are skipped completely, and layout (white space, unknown elements, text in pieces) does not matter. (Findings: <default> elements have no effect; the root given in the file is never used; graph data after an edge are given to the edge; parse_string never returns in sparse mode.)",
  "all GraphML documents, requested ids and layouts",
  "Over all files, attribute orders and layouts.",
  L+"gb/graphml.py:GraphmlParser", L+"gb/parser.py:XmlGraphbankParser", L+"graph/daesograph.py:DaesoGraph")
p("C44","Parallel text evaluation and diff are consistent",
  "The true, predicted and common counts are the numbers of different (from id, to id) pairs of the links whose both ends have the given tag; exchanging the corpora exchanges the counts; precision, recall and F lie in [0,1], F is 1 exactly for equal non-empty alignments and 0 exactly for disjoint ones; the overall row scores the sums. The diff of two corpora over the same documents reports exactly the links by id that the other corpus lacks, is empty on equal corpora, and changes sides under exchange. (Links by number all count as one alignment; the tag of the target is not compared by the diff.)",
  "all pairs of corpora and tags",
  "Set laws over all corpora.",
  L+"ptc/evaluate.py:eval_alignment,count_alignment,compute_scores", L+"ptc/diff.py:print_diff")
p("C45","pgc_from_ptc creates exactly the admissible graph pairs",
  "The new corpus has, in the order of the links, one pair of the graphs with the ids of the link for each link with the requested tags whose elements have at most max_token_len words each and (if min_token_diff is not 0) at least min_token_diff words in all that do not occur on the other side; there are no other pairs. It raises KeyError exactly if such a link names no element, or passes the limits but names no graph. Weaker limits only add pairs. (Refuted: a link without ids is always reported.)",
  "all text corpora, document trees, graph banks, tags and limits",
  "Filter law over all inputs.",
  L+"pgc/creation.py:pgc_from_ptc", L+"pgc/creation.py:_token_diff", L+"pgc/creation.py:_get_elem_tokens")
p("C46","Corpus path rewriting is exact, and undoable exactly when no path already had the new prefix",
  "pgc_chdir replaces the old path prefix by the new one in the text of exactly those file elements below the root that start with it and changes nothing else; it fails, with AttributeError, exactly when some file element has no text. Changing back restores the document exactly when every bank file starts with the old prefix or does not start with the new one; equal prefixes (the default) change nothing. The prefix is compared as text, not per directory (../gb also matches ../gb2). ptc_chdir makes a path the last component (slashes or backslashes, without drive letter) in the given directory; it fails with IndexError exactly for an empty path or a single capital letter; a second run changes nothing when a directory is given, but not with the default empty directory. A dry run writes nothing, a real run changes only the files listed, and a run that fails has written exactly the files before the failing one.",
  "all XML trees, texts, prefixes, directories, paths, file systems and lists of files",
  "Over all trees and strings, including overlapping prefixes, and all points of failure.",
  "bin/pgc_chdir.py", "bin/ptc_chdir.py", "lib/daeso/ptc/document.py: get_filename, set_filename")
p("C47","Statistics of a corpus segment add up",
  "After corpus_seg_stats every requested part (annotation and subsegment: all, by annotation, by subsegment or as annotation.subsegment) has its two tables in its files (an empty table leaves the file alone), the parts not requested keep theirs, the files of every annotation have the rows of the files of its parts in order with summed counts and percentages and averages computed from the sums, the files of the segment those of its annotations, and no other file changes. So in a fresh directory each count of the segment is the sum of the counts of all parts. The names differ if names have no dots and slashes; the segment is the last part of its directory; no parts is an AssertionError. (Findings: the old table of an annotation for which nothing is found is counted; a file cut short stops the run; an annotation called all is counted twice; parts x/1 and x.1 share a file.)",
  "all segments, annotations, parts, requests, tables and contents of the directory before the run",
  "Over all previous contents of the directory and histories of partial runs.",
  L+"stats/corpus.py:corpus_seg_stats,read_subtable,write_table", L+"pgc/pgcstats.py:PgcStatsTable.summarize", L+"gb/gbstats.py:GbStatsTable.summarize")
p("C48","Equality, deep copies and annotators of graph pairs and corpora",
  "Whatever has been done to graph pairs and corpora before: if == gives an answer for two graph pairs then it is right (same class, graph bank files, graph ids, meta data up to white space, alignments), likewise for two corpora (relations, meta data and graph pairs in order); == is reflexive, symmetric and transitive, and raises only if a graph bank file is missing (OSError), meta data are not ASCII (ValueError) or just one corpus has meta data (AttributeError). A deep copy looks the same as the original, a graph pair at two positions is copied once, and from then on no operation on objects that existed before affects the copy, and no operation on others affects what was there before. A copy of a corpus with ASCII meta data equals the original unless meta data without children got lost. get_annotator gives the text of the first annotator element; set_annotator changes nothing else, annotators added one by one are joined by plus signs, corpora sharing the element (slices) share the annotator. (Findings: meta data without children are not copied; a slice's annotator is the whole corpus's; a corpus without meta data cannot be given an annotator.)",
  "all histories of operations on elements, graph pairs and corpora, and all states of the file system",
  "Over all histories and ways of sharing objects.",
  L+"pgc/graphpair.py:GraphPairBase.__eq__,__deepcopy__,GraphMapping.__eq__,__deepcopy__", L+"pgc/corpus.py:ParallelGraphCorpus.__eq__,__deepcopy__,get_annotator,set_annotator", L+"gb/graphbank.py:GraphBank.__eq__", L+"pair.py:Pair.__eq__")
p("C49","Copying, packing and unpacking corpora (pgc_cp, pgc_zip, relax_gb_paths, multiglob)",
  "pgc_cp without --overwrite never changes an existing file; in any case it changes only the places its sources go to, never a source by copying it onto itself. If the base names of the sources differ, every source is either complained about (missing, not a corpus, same file, target exists) or copied so that the copy, read from its own place, is the same corpus with the same graph bank files, formats, alignments, relations and meta data with children. It ends early only at a corpus of which two graph bank files cannot be compared or a format is missing, or if the target cannot be opened; later sources are then not copied. pgc_zip succeeds exactly if all corpora can be read and all their graph bank files exist; the archive then holds exactly these files under their base names. A packed corpus, unpacked anywhere and read with relax_gb_paths, is the same corpus with the unpacked bank files, if base names differ and nothing is found at the recorded paths. glob and multiglob give all matches in sorted order. (Findings: with --overwrite sources of equal base names replace each other; any XML document without corpus tags is copied as an empty corpus; files of equal base names replace each other in an archive; a file at the recorded path at the other site is preferred to the unpacked bank; overlapping patterns repeat files.)",
  "all file trees (without links), lists of sources and patterns, corpora, archive names and sites",
  "Over all file trees and corpora, and over sequences of copies that affect each other.",
  "bin/pgc_cp.py", "bin/pgc_zip.py:pgc_zip", L+"utils/opsys.py:glob,multiglob", L+"pgc/corpus.py:PGCParser.handle_file_elem_end,ParallelGraphCorpus._graphbanks,PGCGenerator.generate")
p("C50","Settings of a Hitaext document",
  "Setting a file name or pseudo root, adding a tag, changing an attribute of a tag and setting up the tags of a document changes exactly that setting of that side; the other side, the alignment section and everything else in the document stay as they are, over any sequence of operations from a new document. Setting up the tags appends one entry per different tag in order of first occurrence, with uniq True exactly for tags that occur once, and makes the tag of the root the pseudo root. Only changing an attribute of an absent tag fails (AttributeError). The getters give the current settings: the trimmed file name, tags with a true attribute in order, the first entry of a tag (get_elem) or the last (get_elem_dict). A document is accepted by the constructor exactly if both sides have a file name that is not white space; a missing name gives AttributeError, a blank one AssertionError. Writing and reading keeps all settings except an empty name. Searching for a file tries the name, the name in the directory of the document, and (finding: instead of the base name in that directory) the document itself. (Further findings: a new document that is written cannot be read; an element without children is replaced by the template instead of refused; setting up tags twice gives every tag twice.)",
  "all documents of the expected structure, sequences of operations, document trees and file systems",
  "Over all histories of settings and all documents.",
  L+"ptc/document.py:HitaextDoc.__init__,validate,get_filename,set_filename,get_pseudo_root,set_pseudo_root,get_tags,get_pseudo_root_tags,get_elem_tags,get_elem,get_elem_dict,add_elem,init_elems,write")
p("C51","Terms, weights and scores of the text aligner",
  "The word (character) terms of a text are the n-grams of its words (characters), joined with blanks, in order. Preprocessed word terms are the n-grams of the lower-cased words. Each named similarity is the ratio of counts that its name says. For every choice of term, weight, similarity and filter function the aligner scores each pair of a source and a target element exactly once, row by row, from the terms and weights of these two elements, and fails only if the weight function or a similarity fails; with a threshold filter exactly the pairs above the threshold are selected, in order. tf-idf weights never fail in the aligner, and the weighted cosine of two elements is in [0,1], symmetric, 0 exactly if they share no informative term (one in some but not all elements) and 1 exactly if they have the same informative terms and at least one. (Findings, proved: punctuation is tested on the whole text and thus not removed; the preprocessed character terms are word terms; the default aligner selects every pair whatever its score; a single identical pair has tf-idf cosine 0; weighted cosine with the default weights always raises TypeError.)",
  "all texts, n, collections of elements, term/weight/similarity/filter functions and thresholds",
  "Over all texts and collections, with real-valued weights.",
  L+"ptc/textalign.py:TextAligner,word_n_gram_factory,char_n_gram_factory,preproc_word_n_gram_factory,preproc_stopword_word_n_gram_factory,preproc_char_n_gram_factory,no_weight,tf_idf_indicator_weight,equals_sim,weighted_cosine_sim,no_filter,threshold_filter_factory")
p("C52","Whole evaluations and their report",
  "A user adds pairs of true and predicted corpora to an evaluation and evaluates, in any order and as often as wanted. The evaluation then reports for each relation, and for any relation, the total counts, mean and variance over the corpora, and precision, recall and F from the totals (micro) and as mean over the corpora (macro); and overall, the sums over the relations, the measures of these sums and the mean over relations; all measures are in [0,1]. Sums and micro averages depend only on the graph pairs, not on their division into corpora, order or names, nor on evaluations in between. It fails (ZeroDivisionError) exactly if nothing was added or there are no relations. Corpora of different length are refused without any change; names and rows always match. The report shows these numbers line by line, rows can be read back as words, and there is no report without an evaluation or if anything was added after it. (Findings, proved: an addition that fails with an unknown relation leaves its name and partial counts behind; with a relation repeated twice the overall macro average is wrong.)",
  "all histories of additions and evaluations, all corpora, relations and names",
  "Over all histories, corpora and sizes.",
  L+"pgc/evaluate.py:AlignEval.add,AlignEval.run_eval,AlignEval.write,AlignCountsTable.run_eval,AlignCountsTable.write",L+"utils/report.py:header")
p("C53","A cache shared by threads",
  "A GenericCache may be used by any number of threads under any schedule of their atomic steps. The synchronized calls (fetch, fetch_with_generator, insert, remove, clear, collect, reconfigure, size) are linearizable: at every moment there is a sequential account of them, only appended to later, containing every thread's calls in its order, which on a single thread gives exactly the same answers and, whenever nobody holds the lock, the same stored state; no unexpected exception is raised. There is no deadlock. If every sequence of the calls returns on a single thread - which is so without a size limit, and for memoised functions - then all threads finish under every fair schedule; and a memoised function shared by threads answers every caller exactly what the function would. (Findings, proved: a call that never returns, see C19, blocks the next synchronized call of every thread for ever; keys() and has_key() take no lock and can show a state that exists between no two calls.)",
  "all thread programs, any number of threads, all schedules of atomic steps, all limits, expiries and clock readings",
  "Over all schedules; liveness over infinite fair schedules.",
  L+"thirdparty/GenericCache/GenericCache.py:GenericCache.fetch,GenericCache.fetch_with_generator,GenericCache.insert,GenericCache.remove,GenericCache.reconfigure,GenericCache.clear,GenericCache.collect,GenericCache.size,GenericCache.keys,GenericCache.has_key",L+"thirdparty/GenericCache/decorators.py:synchronized",L+"thirdparty/GenericCache/LRUStock.py:LRUStock")
p("C54","The printed report of inter-annotator agreement",
  "For two or more annotators with different names and corpora of one length with known relations, the agreement report is written, and for every relation and measure it is exactly: a header, a table with one row and one column per annotator in sorted order whose cell in row t and column p is the score of p's corpus against t's recounted from the alignments (in percent, rounded to hundredths, blank on the diagonal), and below it the mean and the sample standard deviation of exactly the scores of each column and of all scores, the standard deviation printed as the exactly rounded square root. Columns are straight if no name is longer than 11 characters. The F tables are symmetric and the recall table is the transposed precision table. Annotators without names are called A1, A2, ... (Finding: a name of 12 or more characters always shifts its row.)",
  "all numbers of annotators, names, corpora, relations, orders of the tables, all non-negative rationals for the roots",
  "Over all corpora and names; exact rounding of square roots over all rationals.",
  L+"pgc/agreement.py:run_eval,write_tables,tableize,cross_evaluate,AnalysesTable,FormatAnalysesMatrix.write")
p("C55","Converting a corpus from links by number to links by id",
  "Converting a parallel text corpus whose links name elements that have ids of their own rewrites it with links by id that align exactly the same pairs of elements, in document order of the sources; reading the result gives every element the partners it had; converting again changes nothing. A bad link or an unknown method raises its exception and leaves the corpus as it was. (Findings: if elements share an id, the alignment moves to another element without notice; if an aligned element has no id, the corpus file is emptied and lost.)",
  "all pairs of document trees, all links by number or id, all methods",
  "Over all trees, ids and links.",
  "bin/ptc_n_to_id.py", L+"ptc/document.py:HitaextDoc.inject_alignments,extract_alignments,write,add_id_alignment")
p("C56","The table of aligned phrases",
  "Phrase extraction prints exactly one line per alignment of every graph pair of every corpus, in order: the source phrase, the relation and the target phrase with the delimiter between them (in verbose mode preceded by the paths of the graphbanks, the ids of the graphs and of the nodes). It stops with TypeError at the first alignment without tokens or relation, with the lines before it printed. With a one-character delimiter that does not occur in the columns, the output determines the phrases, tokens and relations of all alignments (and paths and ids if shown). (Findings: a blank delimiter, or a tab inside a token, makes different corpora print the same table; one node without tokens stops the program.)",
  "all corpora, alignments, tokens, delimiters, both modes",
  "Over all corpora and token texts; reading back is injectivity over infinitely many outputs.",
  "bin/pgc_extract_phrases.py:extract_phrases", L+"graph/daesograph.py:DaesoGraph.get_node_token_string")
p("C57","Caching recursive functions",
  "Functions decorated with cached(), which may call themselves and each other and may raise and catch exceptions, return for every call exactly the value or exception of plain evaluation, and every call returns, whatever the size limit, the time to live, the clock and the other operations on the cache in between, as long as different calls have different keys. Only results of plain evaluation are stored, never failures. Without limits a function runs only for needed arguments and at most once for each argument for which it does not raise. The default keys are different for functions with different names. (Findings: functions of the same name that share a cache get each other's results; with default_fail=True a cached function never runs, every call raises KeyError.)",
  "all recursive functions (as trees of calls), arguments, cache settings, clocks, sessions",
  "Over all functions, recursion patterns, evictions and sessions.",
  L+"thirdparty/GenericCache/decorators.py:cached,default_marshaller", L+"thirdparty/GenericCache/GenericCache.py:GenericCache.fetch_with_generator")
p("C58","Printed alignments and score tables",
  "For two sequences that are not empty print_alignment writes a grid with the positions and elements above and to the left and a cross exactly at the aligned pairs; all lines have the same columns whatever the elements are, lines split at blanks if the elements are words, and the alignment can be read back. print_scores writes such a grid for every table with all its entries (KeyError otherwise, ValueError for an empty sequence) if scores are above -1000 and below 10000, with each score cut off to a whole number, and the scores can be read back up to that; every table returned by the aligners can be printed, and print_all_scores_and_alignments prints one part for each alignment. (Findings: fractional scores are cut off, so different tables print the same; longer scores run together.)",
  "all sequences, tables of scores and alignments, headers and trailers",
  "Over all sequences, element texts, widths and tables.",
  L+"string/needleman_wunsch.py:print_scores,print_alignment", L+"string/waterman_eggert.py:print_all_scores_and_alignments")
p("C59","Ordered directed graphs",
  "For every history of add_node, add_nodes_from, add_edge and add_edges_from on an ODiGraph: a call fails exactly when a bunch of edges contains a wrong tuple (AssertionError if the data is not a dict, NameError if the length is wrong), and then the tuples before it have been added; nodes are listed once each in order of first mention; successors and predecessors of a node are listed in order of first insertion of the edges, an unknown node is a KeyError; an attribute of an edge is the value given last for it, from either side; an attribute of a node is the value given last to it or to a node introduced by the same call of add_nodes_from. (Findings: nodes introduced by one call of add_nodes_from share their attributes, so changing one changes the others; a graph cannot be made from data and a tuple of wrong length is a NameError, because names are not imported.)",
  "all histories of calls, nodes and attributes",
  "Over all histories of calls of any length.",
  L+"graph/ograph.py:ODiGraph")
p("C60","Making directories",
  "makedirs raises nothing. If no one else works on the disk, the directory and those on the way to it exist afterwards exactly if they existed or could be made, what existed and what is not on the way is unchanged, and a second call changes nothing. While other programs are at work that do not remove directories and do not get in the way, the directory exists afterwards, whatever directories they make in between. (Finding: all errors are swallowed, so it returns also if a file is in the way or nothing may be written, and the directory does not exist.)",
  "all paths, disks and actions of other programs between the system calls",
  "Over all disks and all interleavings with other programs.",
  L+"utils/opsys.py:makedirs")
p("C61","The batch scripts",
  "pgc_from_ptc with unequal numbers of text corpora and graph banks says so and changes nothing. Otherwise it converts one after another, and however it ends it changes no file but the outputs: the base name of each text corpus with extension .pgc, in the current directory. It is ended exactly by the first job of which the conversion fails or the output cannot be opened, with the outputs of the jobs before it in place. If output names differ and the conversions do not read outputs, every text corpus has its output at the end. The options of pgc_stats and gb_stats count if they or -a are given, in any order and number. (Findings: text corpora with the same base name in different directories overwrite each other without warning; the -t option of pgc_stats is a usage error for every value.)",
  "all lists of files, disks, conversions that read the disk and may fail, and lists of options",
  "Over all disks and failure points of a batch, and all command lines.",
  "bin/pgc_from_ptc.py","bin/pgc_stats.py","bin/gb_stats.py")
p("C62","Tokens of nodes",
  "After any sequence of add_node, set_node_tokens and set_node_token_string, a node has the tokens it was given last, and other nodes theirs; setting tokens fails exactly for nodes that were never added. A token string that is set is what get_node_token_string returns, whatever text it is; that method never raises. Setting the token string to what it is keeps the tokens exactly if there are tokens and none contains a space. dump_alignments prints every alignment in order, up to one without a relation. (Findings: setting the token string of an empty node to its own token string makes it a punctuation node; add_nodes_from silently adds nothing.)",
  "all histories of calls, all token lists and texts, all alignments",
  "Over all histories and texts; tests use a few token strings without odd spaces.",
  L+"graph/daesograph.py:DaesoGraph",L+"pgc/graphpair.py:dump_alignments")
p("C63","Cache with arbitrary keys",
  "GenericCache with any objects as keys: after any history that returns, the size limit is kept and a lookup finds only a value stored for a key with the same string, neither removed nor assigned since and not expired; keys() gives one stored object for each stored string. If all stored keys hash as their strings the cache is exactly the cache of these strings, and has_key is right. Keys that cannot be hashed cannot be stored: TypeError, nothing changes. (Findings: for numbers and tuples has_key is always False, also right after the insert, assigning to a stored number in a full cache evicts another entry, and 1 and '1' share an entry.)",
  "all key types with any string function, all histories of calls, all clock readings, all limits",
  "Over all histories and kinds of keys; tests use string keys.",
  L+"thirdparty/GenericCache/GenericCache.py:GenericCache",L+"thirdparty/GenericCache/GenericCache.py:CacheNode")
p("C64","Pair objects",
  "== of two Pairs is True exactly if their contents are the same at all depths, None exactly if the first difference is between a Pair and something else, and otherwise False; it is an equivalence if == of the items is. It returns exactly if a pair does not contain itself, which is always so for pairs that are made but never changed. Unpacking Pair(s, t) gives s and t; set replaces both items, an assignment one, and pairs from which the changed one cannot be reached keep their contents. repr and str print the contents. (Findings: != compares identities, so two pairs can be both equal and unequal; equal pairs are different dict keys; set(source=x) resets the target.)",
  "all items with any ==, all histories of making and changing pairs, pairs nested to any depth and shared",
  "Over all heaps of shared and nested pairs; tests compare a few flat pairs.",
  L+"pair.py:Pair")
p("C65","Stock of items in order of use",
  "LRUStock by itself: after any sequence of add, update, discard and clear, iteration, tolist, pop, len, in and str() show the specified list of occurrences. If no item is added while it is there, the items are distinct, in order of last use, and len is their number. A loop that discards each item it visits visits all items once and empties the stock. (Findings: adding an item that is there makes a second occurrence that only clear removes, and then len(stock) differs from len(list(stock)); pop does not remove; updating the items in a loop over the stock never ends if there are two or more.)",
  "all sequences of operations, all items",
  "Over all histories, including changes during iteration, at the level of the linked nodes; tests try a few.",
  L+"thirdparty/GenericCache/LRUStock.py:LRUStock")
p("C66","Cached functions that call each other from several threads",
  "Functions decorated with cached() on any number of caches may call each other, from any number of threads. Every value returned is the value of the function computed without caches, under every schedule and whatever the caches drop meanwhile. If nothing is dropped and no function needs its own value, each function is computed at most once per key, over all threads. If calls only go to the same cache or to a cache later in a fixed order (in particular with one cache), then whenever a thread has not returned, some thread can move; no thread needs more steps than without caches; all threads can finish; and then all locks are free. (Finding: the lock of a cache is held while the function is computed, so functions of two caches that call each other's caches can deadlock: two threads then wait forever.)",
  "all sets of cached functions and call structures, all numbers of caches and threads, all schedules and evictions",
  "Quantifies over all interleavings of all threads and evictions; tests run a few schedules, and deadlocks need particular ones.",
  L+"thirdparty/GenericCache/decorators.py:cached,synchronized", L+"thirdparty/GenericCache/GenericCache.py:fetch_with_generator")
p("C67","Printed matrices",
  "print_matrix writes one line for each row of a matrix of positive integers, the numbers right-aligned in fields of one width, which is that of the longest number; rows with equally many numbers give equally long lines; and what is written determines the matrix (whatever rounding log10 has). (Findings: a value of zero or less, such as a padded cell or an ordinary zero cost, raises ValueError after the message was written; an empty row is written as a closing bracket only.)",
  "all matrices of integers with rows of any lengths, all messages",
  "Unbounded matrices and numbers, and injectivity of the layout relates all pairs of matrices.",
  L+"thirdparty/munkres.py:print_matrix")
p("C68","String measures agree",
  "The measures of daeso.string agree with each other. needleman_wunsch with 0 for equal elements and -1 for mismatches and gaps has minus the levenshtein distance of the prefixes in every entry of its table, and its alignment is an edit script of the length of the distance; with 1 for equal elements and no costs the entries are the lengths of the lcs of the prefixes and the aligned elements are a longest common subsequence of both; with -2 and -1 the score is minus the number of elements outside the lcs. smith_waterman with 1/0 and no gap cost aligns as many equal elements as the lcs has and raises IndexError exactly if the sequences have no common element. max(len) - len(lcs) <= levenshtein <= len(s1) + len(s2) - 2 len(lcs).",
  "all pairs of sequences over any type with equality",
  "Relates four algorithms on all pairs of sequences of unbounded length.",
  L+"string/needleman_wunsch.py:needleman_wunsch",L+"string/smith_waterman.py:smith_waterman",L+"string/levenshtein.py:levenshtein",L+"string/lcs.py:lcs")
p("C69","Command lines of the scripts",
  "The command line of every script in bin/ is parsed as documented by argparse. Whatever the arguments, parse_args returns names with values, or the script exits after help, version or a usage error; no other exception is raised and parsing ends. Returned values come from a reading of the whole line from left to right: options as they are spelled (in full, by an unambiguous prefix, with a value attached, several letters in one string), each followed by as many strings as it takes, and each argument without option once, in order; any other name has its default. Options, then operands, then options are read exactly as written, the operands dealt out greedily from the left, and this decides help, version and conversion errors too; after -- everything is an operand and further -- are dropped. No string before -- is accepted that is neither an operand nor an unambiguous option. pgc_stats cannot be given a threshold.",
  "all argument lists of any length, all parsers made of arguments with one, any number, at least one or n strings, stored, appended, flags, help and version, hence all fifteen scripts",
  "Ranges over all command lines; the greedy matching of patterns with backtracking interacts with option positions, abbreviations and --.",
  "lib/daeso/thirdparty/argparse.py:ArgumentParser.parse_args",L+"utils/cli.py:DaesoArgParser","bin/pgc_diff.py","bin/pgc_cp.py","bin/pgc_stats.py")
p("C70","Waiting for output of a child process",
  "spawn.expect_exact() searches each new piece of output only once, but returns what searching everything read so far after every piece would give: the string that begins first, of those the leftmost in the list, else EOF or TIMEOUT by the last place in the list or as an exception, after the first piece, time-out or end that decides it; expect() with compiled patterns likewise. before, after and buffer together are exactly what was read, in order, with any search window. If no search string is inside another one, the result, the attributes and what later calls see depend only on the output, not on how it is cut into pieces or when they come within the timeout. A search window not smaller than the longest string plus the longest piece changes nothing. read(n) returns the next n bytes or all that is left, read() everything, readline() the next line with its CRLF, readlines() the lines, and the rest of the output stays to be read.",
  "all outputs, all ways to cut them into pieces, all times, timeouts, errors and ends of the output, all lists of strings or regular expressions, all window sizes",
  "Ranges over all schedules of a child process; which piece holds a match, and the offset for searching again only the new part, depend on the cut.",
  L+"thirdparty/pexpect.py:spawn.expect_loop",L+"thirdparty/pexpect.py:searcher_string",L+"thirdparty/pexpect.py:searcher_re",L+"thirdparty/pexpect.py:spawn.readlines")
p("C71","Running a command",
  "split_command_line() reads a line as arguments separated by space, each a sequence of plain characters, characters after a backslash and quoted parts; every string is such a line, so every string has a definite reading; space at the beginning counts as an empty argument, an empty last argument does not count, and a quotation left open ends with the line. Non-empty arguments that are escaped or quoted and joined with blanks come back unchanged. which() returns the name itself if it has a slash and can be executed, else the first path in the directories of the search path that can be executed, else None; the child gets this path and the other arguments unchanged. run() with events for texts returns what the child wrote, every byte once and in order, up to the end, the time-out, or the match at which a response stops it, in whatever pieces the output comes, and ends if no event matches the empty text.",
  "all strings, all lists of arguments, all search paths and sets of executable files, all lists of events and responses, all outputs and ways to cut them into pieces",
  "Ranges over all strings of special characters and all schedules of output; the accumulation in run() is right only because of what before, after and buffer hold after each event.",
  L+"thirdparty/pexpect.py:split_command_line",L+"thirdparty/pexpect.py:which",L+"thirdparty/pexpect.py:run")
p("C72","Usage",
  "The usage a script shows with its help and before every error of its command line never fails to be made, for whatever name of the program and width of the screen (COLUMNS minus 2, else 78): it is one line if that fits; otherwise there is exactly one layout: as many units (an option in brackets with the names of its values; a value of an argument without option) on each line as fit, below each other after the name of the program, or on the lines below it if the name takes more than three quarters of a line, operands on a new line; no unit is broken, lost or moved, no line is longer than the width unless it holds one unit or only the name of the program; the words are the same for every width. This holds for all parsers whose names have no space and no brackets, and all scripts' parsers are of this kind. An error shows the usage, then the message, and exits with status 2.",
  "all parsers with well-formed names, all names of programs without newline, all values of COLUMNS, all widths including negative ones",
  "The layout goes through four regular expressions, an assertion, and a greedy loop that depends on the width: tests can only try some widths and parsers.",
  L+"thirdparty/argparse.py:HelpFormatter._format_usage",L+"thirdparty/argparse.py:HelpFormatter._format_actions_usage",L+"thirdparty/argparse.py:ArgumentParser.error")
p("C73","Child processes",
  "Whatever is called on a spawned child, in whatever order, and whatever the child does in between (stops, continues, exits, is killed): after its end was collected it is never asked for or signalled again (the number may be that of another process by then); terminated is set exactly when the end was collected, and exitstatus or signalstatus tell that end, which is one of the child itself or the SIGKILL that was sent; from then on isalive is False, terminate True, kill does nothing, wait raises. isalive answers True only for a child that is alive and False only for one that has ended, notices every end, never fails, and blocks only after EOF was read, while the child lives. terminate answers True iff the child has ended, sends HUP, CONT, INT in this order and KILL only if forced, and if forced always succeeds when the signals may be sent; it does not raise. When close returns, the child has ended and its descriptor was closed exactly once; if forced it succeeds. wait returns the exit code of the end.",
  "all sequences of calls of isalive, wait, kill, terminate and close and of reads that raise EOF, all schedules of what happens to the child before each system call, all sets of signals that may be sent",
  "What happens between two system calls is a race; a test sees one schedule.",
  L+"thirdparty/pexpect.py:spawn.isalive",L+"thirdparty/pexpect.py:spawn.terminate",L+"thirdparty/pexpect.py:spawn.close",L+"thirdparty/pexpect.py:spawn.wait",L+"thirdparty/pexpect.py:spawn.kill")
p("C74","Sending and interact",
  "While the user interacts with a child, what is typed reaches the child completely and in order, however it is cut into pieces by reading and writing, up to the escape character, which is not sent if it is read at most once at a time; a child that ends meanwhile has got the first part of that; what the child writes is shown after the buffer, and goes to the log, completely as far as the terminal takes it; however interact ends (escape, end of the child, an exception) the terminal is set back. send returns the number of characters that the child got, at least one; sendline ends the line; sendcontrol sends the character with the last five bits, or DEL for a question mark, and nothing for others; the logs get everything.",
  "all sequences of reads from the child and the user, all filters, all escape texts, all numbers of characters that writes accept, all moments at which the child ends, all strings and characters",
  "How the input is cut into reads and how much a write accepts depends on timing and buffers; a test at a terminal sees one way.",
  L+"thirdparty/pexpect.py:spawn.interact",L+"thirdparty/pexpect.py:spawn.send",L+"thirdparty/pexpect.py:spawn.sendline",L+"thirdparty/pexpect.py:spawn.sendcontrol",L+"thirdparty/pexpect.py:spawn.writelines")
p("C75","Reading from a child",
  "However much is asked for, with whatever time-outs, and whatever happens meanwhile (output in any pieces, signals, the end of the child, the terminal being hung up), reading returns the output in order, without loss or repetition, and logs exactly that. What is there is returned at once, even after the child has ended. TIMEOUT is raised exactly after the time-out, and then there is nothing to read and the child lives; EOF only if there is nothing to read and the child has ended or hung up, and in the second case all output has been returned. Until EOF, a read with a time-out returns in time in spite of signals, and one without blocks only if nothing more will happen.",
  "all sequences of reads with all sizes and time-outs, all schedules of output, signals, ends and time, all numbers of characters that os.read gives",
  "Which of three tests of the child and three calls of select sees an event depends on timing.",
  L+"thirdparty/pexpect.py:spawn.read_nonblocking",L+"thirdparty/pexpect.py:spawn.__select")
p("C76","Echo mode",
  "setecho sets the echo flag of the terminal, so that getecho tells it, and changes no other flag or attribute. waitnoecho with a time-out answers True at the first of the looks every 0.1 seconds that finds the echo off, and False if it was on at all looks until the time-out had passed, between 0.1 and 0.2 seconds after it; without a time-out it is never False and ends when the echo is found off.",
  "all attributes of a terminal, all courses of the echo flag over time, all time-outs from 0 on, all times of starting",
  "The course of the flag over time is not under the control of a test.",
  L+"thirdparty/pexpect.py:spawn.getecho",L+"thirdparty/pexpect.py:spawn.setecho",L+"thirdparty/pexpect.py:spawn.waitnoecho")
p("C77","Help",
  "The help of a program shows the usage, the description, all operands, all options and the epilog, in this order, each argument once: at column 2 an operand's label or all spellings of an option with its values, and, on the same line if that leaves two blanks, all of the help text, with every %(name)s filled in, in lines of a right column that is the same for all arguments, starts at 24 at most and does not exceed the line. There are no two empty lines together and none at either end. Help is shown exactly if the usage can be laid out and every help text can be filled in, is not blank, and the right column is within the line; otherwise asking for help raises an exception.",
  "all parsers without suppressed arguments, all names without line ends, help texts, attributes, descriptions, epilogs, widths of the line, all ways of wrapping that keep what can be seen",
  "The layout depends on the longest argument, on the width of the terminal and on the wrapping of every text.",
  L+"thirdparty/argparse.py:HelpFormatter.format_help",L+"thirdparty/argparse.py:HelpFormatter._format_action",L+"thirdparty/argparse.py:ArgumentParser.format_help",L+"utils/cli.py:DaesoArgParser")
if __name__ == "__main__":
    import os
    with open(os.path.join(os.path.dirname(__file__), "..", "properties.jsonl"), "w") as f:
        for d in P:
            f.write(json.dumps(d) + "\n")

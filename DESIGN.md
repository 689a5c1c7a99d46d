# Design: a Rocq (Coq 8.16.1) model of emsrc/daeso-framework

## Layout

Every area `X` of the code is represented by up to four files in `rocq/theories/`:

* `X_model.v`  – executable, total Gallina functions mirroring the Python code branch by branch.  Each
  definition has a comment citing file and lines in /repo, and the simplifications made.  No proofs.
* `X_spec.v`   – small specification vocabulary (edit scripts, subsequences, assignments, ...) that does not use the
  functions of the model (a few share the record types of the data, such as trees, with it).
* `X_proof.v`  – lemmas.
* `X_props.v`  – the theorems, mostly `Theorem ... exact lemma. Qed.`, for each an `Example` that a non-trivial instance
  meets its hypotheses, and `Print Assumptions`.

`Py.v`/`PyLemmas.v` hold the shared Python vocabulary.  Conventions: the code is **Python 2**.  A Python exception is a
value (`Err e` of `res A`).  Sequences and strings are `list`s over a type with decidable equality; unbounded ints are
`Z`/`nat`; floats obtained by dividing integers are exact rationals `Q` (or the numerator/denominator pair when a square
root is applied afterwards, or real numbers for logarithms).  Dict and set iteration order, where the code iterates over
a built-in dict, is a parameter (any permutation) and not fixed.  Loops become structural recursion, or recursion on
explicit fuel with a distinguished out-of-fuel result; theorems then say that enough fuel exists (termination), or that
none does (non-termination).  Objects with identity are numbers pointing into an explicit store.

`properties.jsonl`, `MANIFEST.json` are generated by `tools/mkprops.py`, `tools/mkmanifest.py` (which also checks that
every theorem of every `_props.v` is listed).  Names of theorems: `..._refuted` proves, by a concrete instance, that a
plausible claim is **false of the code** (a finding); `..._partial` proves a part of the property.

## Per property: what is modelled and how it is proved

| id | module | code modelled | proof idea |
|----|--------|---------------|------------|
| C01-C03 | Lev | `string/levenshtein.py`: the two-row DP loop, normalized distance | row invariant = recursive edit distance; equals the minimum cost of an inductively defined edit script |
| C04-C05 | Lcs | `string/lcs.py`: DP table and back-trace with fuel | table = LCS length of prefixes; back-trace invariant; normalized value in R |
| C06-C07 | Ngram | `string/ngram.py`, `string/sgram.py` | windows as positions (nth/firstn/skipn); skip bigrams = position pairs |
| C08 | Median | `string/median.py`: triangular loop of summed distances | sum exchange lemma |
| C09 | Rouge | `string/rouge.py` | counting of common n-grams over Q |
| C10 | Sim | `string/similar.py` | cardinalities of duplicate-free lists; Cauchy-Schwarz on squares |
| C11-C13 | Seqal | `needleman_wunsch.py`, `smith_waterman.py`, `waterman_eggert.py`: (score, step) cells, tuple max, back-trace | inductive alignments; optimal substructure; refutations by computation |
| C14 | Tfidf | `string/tf_idf.py` | counting lemmas; logarithms in R |
| C15 | Number | `string/number.py` | sweep over the 1000 triples (`vm_compute`, a complete finite case split) lifted to all numbers; a decoder as left inverse |
| C16 | Odict | `thirdparty/odict.py` | refinement to an association list, induction over operation histories |
| C17 | Counter | `thirdparty/counter.py` | pointwise laws |
| C18-C19 | Cache, Cachem | `thirdparty/GenericCache/{LRUStock,GenericCache}.py`: LRU ring as heap of nodes at pointer level, value table, clock | invariants over histories; for C19 a simulation of the pointer ring by the list of marks of Cachem_spec (live entries and leftovers of overwritten keys), for every history, returning or not |
| C20-C22 | Munkres | `thirdparty/munkres.py`: step machine, padding, cost matrix | dual feasibility + starred zeros invariant; lexicographic termination measure; optimality against all assignments |
| C23-C24 | Graph | `graph/ograph.py`, `graph/daesograph.py`: ordered adjacency tables, attribute dicts by reference, DFS with explicit stack | invariants over histories; DFS invariant = reachability order |
| C25-C26 | Align | `pgc/graphpair.py` 188-433 (GraphMapping, GraphMatching) | invariants over histories; refinement to partial injection |
| C27 | Corpus | `pgc/corpus.py` 55-715, list operations, meta data, relations by reference | list laws; failure theorems |
| C28 | Purge | `pgc/corpus.py` 556-599 | filter laws |
| C29 | PgcXml | `pgc/corpus.py` 719-1217: generator and parser (event handlers) | round trip by induction over the document |
| C30 | Diff | `pgc/diff.py` | exact sequence of printed differences |
| C31 | Eval | `pgc/evaluate.py`: counts, precision/recall/F, tables | finite-set counting |
| C32 | Agree | `pgc/agreement.py` 71-243 | sums over pairs of annotators |
| C33-C34 | Ielem, Hdoc | `ptc/ielemtree.py`, `ptc/document.py` 213-349 | induction on trees; positions and ids; inject/extract/clear |
| C35-C37 | Textal | `ptc/textalign.py`: filters, flow, weighted cosine | greedy invariant; Cauchy-Schwarz in R |
| C38 | Etree | `utils/etree.py` | induction on trees |
| C39 | Stats | `gb/gbstats.py`, `pgc/pgcstats.py` | fold invariants: every cell equals a count over pairs, links, graphs, nodes |
| C40 | Table | `stats/table.py`, the column definitions of the two tables | printer/parser round trip on character level |
| C41 | Split | `bin/pgc_split.py`, `bin/pgc_join.py`, `utils/opsys.py:multiglob` | div/mod; sorting of file names |
| C42 | Sparse | `gb/graphbank.py`, `gb/graphstub.py`, `gb/parser.py` 69-97, the use by PGCParser | state machine invariant over events; sharing |
| C43 | Graphml | `gb/graphml.py`, `gb/parser.py` | exact effect of every event list that the grammar produces |
| C44 | Ptceval | `ptc/evaluate.py`, `ptc/diff.py` | filter laws |
| C45 | Create | `pgc/creation.py` | fold invariant; unique id splitting |
| C46 | Chdir | `bin/pgc_chdir.py`, `bin/ptc_chdir.py` | exact effect on paths; undo; histories |
| C47 | Segstats (Segrows) | `stats/corpus.py`: `corpus_seg_stats`, `read_subtable`, `write_table`; the overalls in `pgcstats.py`, `gbstats.py` | frame and invariant over the files; table algebra modulo rounding |
| C48 | Equal | `pgc/graphpair.py` and `pgc/corpus.py`: `__eq__`, `__deepcopy__`, annotators; `GraphBank.__eq__` | heap of elements, pairs and corpora; soundness invariant; frame theorem for separation |
| C49 | Ship | `bin/pgc_cp.py`, `bin/pgc_zip.py`, `utils/opsys.py` (glob, multiglob), `PGCParser` with `relax_gb_paths` | file system as a map from paths; induction over the sources; parsing with two ways of locating banks related by a simulation; PgcXml's round trip |
| C50 | Settings | `ptc/document.py` 37-187 | trees changed in place as functional updates; refinement of an abstract settings record by an outline-preserving update lemma; induction over histories |
| C51 | Terms | `ptc/textalign.py` 189-265, 302-432 | n-grams of words via C06 and C45; rows of a double loop by index arithmetic; cosine of indicator vectors C/sqrt(AB) with C<=A, C<=B |
| C52 | Evalrun | `pgc/evaluate.py` 180-405, 487-680; `utils/report.py` 29-41 | invariant: one exact row (C31) per addition; transposed sums; F = 2c/(t+p); permutation of sums; printed lines against a list of described lines, decimal numerals from C40 |
| C53 | Threads | `GenericCache.py` 73-202, `decorators.py` 47-62, `LRUStock.py` 42-62, 106-112 | statement-level programs (coinductive), RLock, scheduler; simulation of every critical section by the sequential call of C18/C19; lock balance; measure for fair schedules |
| C54 | Agreerep | `agreement.py` 41-70, 108-113, 250-303 | report as lines, independent description of every line; integer square roots for the printed standard deviations; widths of cells from the ranges of scores and variances |
| C55 | Convert | `bin/ptc_n_to_id.py` 56-74, `document.py` 171-180, 230-259, 306-319 | on top of Hdoc: exact outcome for every document; what is aligned before and after, as pairs of elements |
| C56 | Phrases | `bin/pgc_extract_phrases.py` 41-67, 93-94, `daesograph.py` 132-137 | rows specified independently; output relation; injectivity by uniqueness of splitting at a character |
| C57 | Memo | `decorators.py` 11-31, `GenericCache.py` 105-115 | recursive functions as trees of calls; plain big-step evaluation as specification; induction on the size of an evaluation, on top of the LRU invariant of C19 |
| C58 | Grid | `needleman_wunsch.py` 119-189, `waterman_eggert.py` 257-262 | texts as lists of characters; a grid specified by margins and fields of equal width; read back by equal lengths; completeness of the tables from C11-C13 |
| C59 | Ograph | `graph/ograph.py` 78-376 | dicts of attributes as objects in a heap; an invariant relates rows, columns and dict identities to the history; twins (nodes introduced by one call of add_nodes_from) share a dict; last value by induction over histories |
| C60 | Mkdirs | `utils/opsys.py` 31-43 | a disk as a map from paths to directories and files; others act before each system call; induction on the path |
| C61 | Batch | `bin/pgc_from_ptc.py` 151-172, `bin/pgc_stats.py` 46-118, `bin/gb_stats.py` 45-107 | a disk, an abstract conversion reading it; induction on the jobs; options folded into a namespace |
| C62 | Tokens | `graph/daesograph.py` 67-78, 109-141, `pgc/graphpair.py` 327-337 | the tokens attribute of each node; induction on histories; join and split inverse |
| C63 | Rawkeys | `thirdparty/GenericCache/GenericCache.py` 16-203 with keys that are not strings | the cache of C18 with the key objects kept beside it; invariant over histories; equal to C18 for string-like keys |
| C64 | Pairs | `pair.py` 32-63 | heap of mutable pairs with references; induction on the contents tree and on the recursion depth |
| C65 | Stock | `thirdparty/GenericCache/LRUStock.py` 23-120 | linked nodes as in C19; relation to a list of occurrences kept by every operation; loops by induction on the ring |
| C66 | Flight | `thirdparty/GenericCache/decorators.py` 17-30, 47-60; `GenericCache.py` 105-115 | functions as trees of calls; threads with call stacks and re-entrant locks; invariant on lock counts and stacks; rank argument for progress; step budgets for termination |
| C67 | Showmat | `thirdparty/munkres.py` 727-759 | log10 as a parameter with the bound that the theorem needs; width by a fold; layout and unique reading by induction on rows |
| C68 | Measures | the models of C01, C04, C11 and C12 | no new model: the cells of the table satisfy the recurrences of distance and lcs; the alignment is read off its score and the tie rule |
| C69 | Cmdline | `thirdparty/argparse.py` 1654-2185: parse_args and all it calls: option tables, abbreviations, the regular expressions for numbers of arguments with backtracking, the loop over options and operands, conversions and actions; the parsers of all scripts | an independent definition of reading a line; the loop by induction over its fuel both ways (every result is a reading; a line written in order is read so); matching of patterns is the lexicographically greatest deal |
| C70 | Expect | `thirdparty/pexpect.py` 852-926, 1318-1420, 1586-1766: expect_exact, expect_list, expect_loop, read, readline, readlines, both searchers; a regular expression is what search() does with it, read_nonblocking the list of its outcomes with times | a relation that searches everything each time; invariant: nothing occurs in what was searched before, so the offset misses nothing; an occurrence chosen in a prefix stays chosen when no string contains another; lines by induction on the output |
| C71 | Runcmd | `thirdparty/pexpect.py` 212-262, 507-520, 1768-1847: split_command_line, which, the arguments in _spawn, the loop of run; posixpath.join; responses are any function of the event | lines as written and meant; the state machine run over each piece; every string is a line by induction from the end; run by induction on its calls with what C70 says of one call |
| C72 | Usage | `thirdparty/argparse.py` 184-500, 577-608, 2197-2201, 2260-2271: the usage of a parser, its regular expressions as functions, format_help for it, error; the names and metavars of the 15 scripts; no groups, choices, suppressed help | layout as a relation on groups of units, unique; the substitutions are the identity by a property of neighbouring characters; findall gives the units; the loop is a fold whose state is the line so far |
| C73 | Child processes | `thirdparty/pexpect.py` 391-413, 657-674, 1049-1189: isalive, wait, kill, terminate, close and the attributes; system calls as operations on a process with a schedule of what happens to it before each; no stopped children reported (no WUNTRACED) | Hoare triples over an invariant: before the end nothing was collected; after it the calls are some, one collection, then only closings; induction on the uses |
| C74 | Sending and interact | `thirdparty/pexpect.py` 928-995, 1455-1539: write, writelines, send, sendline, sendcontrol, interact with its loop; reads are a list of rounds, writes accept given numbers of characters, the child lives for a number of tests | rfind as the last occurrence; the writing loop by its fuel; the copying loop by induction on the rounds with one relation for what was sent, shown and logged; the 256 characters of sendcontrol by computation |
| C75 | Reading from a child | `thirdparty/pexpect.py` 774-850, 1541-1566: read_nonblocking, __select; a clock and a schedule of output, signals, ends; os.read gives given numbers of characters; no time-outs below 0 but the default, no Irix | output already returned and output that can still be read are the whole output; waiting by induction on the schedule, each interruption takes one item of it; the three paths through isalive and select |
| C76 | Echo mode | `thirdparty/pexpect.py` 690-772: getecho, setecho, waitnoecho; the flags of the terminal are any function of the time, sleeping is exact and everything else takes no time | bits of numbers; the time left as a function of the number of looks, induction on the rounds |
| C77 | Help | `thirdparty/argparse.py` 225-318, 502-576, 610-653, 2203-2225: format_help, sections, columns, %(name)s; `textwrap.wrap` is any function that keeps what can be seen within the width | the non-empty lines of the help as a homomorphism over its pieces; a relation for filled in texts; all failures exactly |

## What is not modelled

* External libraries: expat/ElementTree tokenisation and serialisation (parsers start from events or element trees, and
  the round-trip theorems of C29 and C40 name what is assumed of them), networkx (modelled by the contract used),
  regular expressions and terminals in pexpect, and the parts of argparse that no script uses (sub-commands, choices, groups;
  help texts) under `thirdparty/`.
* Floating-point rounding (rationals or reals instead), time and memory use, threads except in C53 and C66, pickling.
* The layout of console output, except tables (C40), evaluation reports (C52), diffs (C30, C44: the sequence of rows).
* Files: reading and writing is by name in a table of contents where it matters (C41, C46, C47), otherwise left out.

The header comment of each `_model.v` and the comments of the definitions state this in detail.

## Findings

Theorems that show the code does not do what one would expect (each is part of the property it belongs to):
Needleman-Wunsch with element-dependent gap costs is not optimal (C11); Waterman-Eggert alignments may intersect and an
unlimited search need not end (C13); ROUGE-N can exceed 1 (C09); generalized cosine is not normalized (C10); 1000000 and
1001000 have the same words (C15); the LRU cache can loop or evict the wrong entry after overwriting a key (C19); node 0
is taken for the root, `non_terminals()` always raises (C24); `pop()`, `insert`, `!=` of a corpus raise (C27); purge with a
pair without alignments ignores its argument (C28); meta data without children is lost (C29); words-only diffs raise,
relation filters miss relabelled alignments (C30); annotators of equal name are never compared (C32); ignored leaf
elements are not marked, positions are stale after a second update (C33); inject/extract change the order of links,
numbers 0 and -1 count from the end, shared ids move alignments (C34); one-sided links are cleared, a root link is written
(C36); `equals` raises on non-ASCII texts and takes None for "None" (C38); PGFP can exceed 100, a graph in several pairs
can count as single aligned (C39); names with blanks or dashes and counts of eight digits break tables (C40); fewer parts
than requested, and >9999 pairs are joined out of order (C41); a pair of a graph with itself cannot be loaded sparsely
(C42); `<default>` has no effect, graph data after an edge go to the edge, sparse `parse_string` never returns (C43); links
by number count as one (C44); links without ids are skipped silently (C45); prefixes are not directory aware (C46);
old tables of an annotation are counted when nothing is found, unreadable files stop the run, an annotation called "all" is
counted twice (C47); deep copies lose meta data without children, slices share the annotator (C48); pgc_cp copies any XML document without corpus tags as an empty corpus, sources or packed files of equal
base names silently replace each other, a file at a recorded path is preferred to an unpacked bank (C49); searching for a moved text returns the Hitaext document
itself, a new document that is written cannot be read, setting up tags twice duplicates them (C50); punctuation is tested on the whole
text, preprocessed character terms are word terms, the default aligner selects every pair, a single identical pair has tf-idf cosine 0 (C51);
a failing AlignEval.add leaves its name and partial counts behind, a relation given three times spoils the overall macro average (C52);
keys() and has_key() are not synchronized and show intermediate states, a hanging insert blocks all threads (C53);
a long annotator name shifts its row in the agreement table (C54);
ptc_n_to_id passes the list of its arguments as a file name and so cannot run as it stands; converting a corpus in which an aligned element has no id loses the corpus file, and shared ids move alignments (C55);
phrase extraction stops at a node without tokens, and tables with delimiters inside columns are ambiguous (C56);
functions of the same name that share a cache get each other's results (C57);
fractional scores are printed cut off and scores of five digits run together (C58);
nodes introduced by one call of ODiGraph.add_nodes_from share their attributes, an ODiGraph cannot be made from data (C59);
makedirs swallows all errors, so it returns without a directory (C60);
pgc_from_ptc overwrites the output of a corpus with the same base name, -t of pgc_stats is always a usage error (C61);
set_node_token_string(n, get_node_token_string(n)) makes an empty node a punctuation node, DaesoGraph.add_nodes_from adds nothing (C62);
has_key of GenericCache is False for a stored number, and assigning to it again evicts another entry of a full cache (C63);
!= of Pairs compares identities although == compares contents, and equal Pairs are different dict keys (C64);
Adding an item to an LRUStock twice makes an occurrence that discard never removes, and a loop that updates the items it visits never ends (C65);
Cached functions on two caches that call each other's caches can deadlock two threads, because a cache keeps its lock while a function is computed (C66);
print_matrix raises ValueError for matrices with a zero, which padded cost matrices have (C67);
pgc_stats.py -t N is always a usage error because its type is the string 'int'; operands of one argument split by a flag (pgc_join a -V b, pgc_cp a b -o c) and pgc_diff -r REL before the corpora are usage errors; a mistyped option that ends in a digit is taken for a file name; --tag=-- stores an empty list (C69);
spawn.read(n) with a search window can drop bytes; a window of 0 searches everything in expect_exact(); the answer for strings inside one another depends on the pieces; after an error while reading, what this call read is not in buffer (C70);
run() with an event for EOF never ends unless the response stops it, and with an event for TIMEOUT it returns output more than once; a blank before a command makes spawn look for a program without name and try to execute a directory; which('./x') searches PATH if ./x cannot be executed (C71);
On a narrow screen the usage has an empty line before the first argument if that is too long; a metavar with brackets inside makes the usage, and so every error message, fail with AssertionError on a narrow screen only, and parentheses in a metavar are dropped (C72);
wait() on a child that has ended already raises an error and does not return its code, so its result depends on a race; after EOF was read isalive() blocks until the child ends, so it is never True; a close() that fails leaves the object open although the descriptor is closed, and each further close() closes the same descriptor number again, without ending the child (C73);
If the escape character is read twice at once, interact() sends the first one and what follows it to the child, and an escape of several characters is only noticed within one read; at the end of the input interact() loops without doing anything; write() and writelines() lose what os.write does not take, sendline() ends a line it sent only part of, and interact() loses output the terminal does not take (C74);
After EOF a read ignores its time-out and blocks until the child ends, for ever if that closed its terminal and goes on; read_nonblocking(0) raises EOF although there is output (C75);
waitnoecho exceeds its time-out by 0.1 to 0.2 seconds and misses an echo that is off for less than 0.1 seconds (C76);
Asking for help raises ValueError on lines not longer than the left column (COLUMNS up to 26), IndexError for a blank help text, and ValueError or KeyError for a stray percent sign in one (C77).

## Mutation testing

`seeded/mutants*.py` list wrong programs: single edits of a model definition the way a realistic bug would change the
code.  `tools/mutate.py` applies each in a scratch directory, rebuilds what depends on it, replaces every proof that no
longer goes through by `Admitted`, and finds by `Print Assumptions` which theorems depend on such a proof.
`tools/mutlog.py` writes `seeded/LOG.jsonl` (definition, edit, claim, failed and tightened theorems).  A mutant under
which no theorem fails, or whose failing theorems are not those of the claim, leads to a stronger theorem.

## Replaying the tests of the code

The model cannot be run against the code here, but the code has unit tests.  `Replay_string.v` and `Replay_graph.v` state the
results that the tests in /repo/test (string, graph, pgc, bin) and the doctests of `counter.py` expect as `Example`s
about the model, and compute them.  All of them agree.  They are no theorems and no claim refers to them; they only
check the reading of /repo.

## Trusted base

* Coq's kernel (and its VM for the `vm_compute` steps).
* The reading of /repo documented in the comments, and the conventions above.
* What `Print Assumptions` lists (`tools/assumptions.py` collects it): all theorems are **closed under the global
  context**, except those that speak about real numbers and so depend on axioms of the standard library's Reals:
  * `ClassicalDedekindReals.sig_forall_dec`, `ClassicalDedekindReals.sig_not_dec` and
    `FunctionalExtensionality.functional_extensionality_dep`: `normalized_lcs_range` (Lcs) and `weighted_cosine_range`,
    `weighted_cosine_any_range`, `weighted_cosine_symmetric`, `weighted_cosine_self`, `weighted_cosine_no_terms`,
    `weighted_cosine_value` (Textal);
  * these three and `Classical_Prop.classic`: `idf_value`, `tf_idf_value`, `weights_in_range`, `normalized_fails` (Tfidf).

No axioms, admitted proofs, functors or module types are defined here.

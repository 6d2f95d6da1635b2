# Formal model of silnrsi/sldrtools in Rocq (Coq 8.16.1)

The code under study is the Python library `lib/sldr` of silnrsi/sldrtools (read as text from `/repo`).
The model lives in `rocq/theories` (logical name `Verif`).

## Layout

Per area of the code there are up to three kinds of file:

* `M_*.v`: the model. Total, computable Gallina functions written function by function. Each definition carries
  a comment citing the file and lines it models, and any simplification. No proofs.
* `P_*.v`: proofs (lemmas).
* `T_*.v`: a small independent specification followed by the property theorems, named after the property (`C27_...`),
  with an `Example` showing that a concrete case meets their hypotheses. A theorem named `..._refuted` shows that a
  stronger statement one would expect is false of the code, by a concrete run of the model.

`Py.v` holds the Python vocabulary shared by the models (strings, exceptions, dictionaries, stable sort), `PyFacts.v`
facts about it. `Assumptions.v` is generated by `tools/mkassumptions.py` from `MANIFEST.json`; it prints the assumptions
of every theorem named there.

## Conventions of the model

* A Python `str` is a `list N` of code points. Literals are written with `$"..."` (ASCII only).
* Exceptions are values: `res A := Ok a | Raise e`.
* A Python `dict` is an association list in insertion order, with update in place and append when new.
* Element trees are immutable values; a mutation becomes a returned value. Aliasing between trees is not modelled unless
  said so at the definition.
* Loops are structural recursion, folds, or recursion on fuel. Out-of-fuel is a distinct value that a theorem excludes.
* Everything outside the code (Unicode property tables, `hash`, the file system, the `langtag` database, ICU) is an
  argument of the model functions, so theorems hold for every such table.

## Plan per property

(see properties.jsonl for the full statements)

| id | what is modelled | how it is proved |
|----|------------------|------------------|
| C01-C04 | UnicodeSets: `list2us`, the two regex substitutions, `parse`/`parseitem`, `flatten` odometer | induction over the list and over the string; fuel bound by string length |
| C05 | `escape`, `unescape` of collation (three regex passes) | induction over the string |
| C06-C07 | `stripzero`, `diffLevel`, `SortKey` operators | order theory on lexicographic comparison |
| C08-C10 | `itemise`, `ducetSortKey`, tailoring insertion, `Collation.__setitem__` | induction; invariants over histories |
| C11-C12 | `ducetCompare`, `_generateSortKey`, `readDucet` key field | case analysis and induction |
| C13-C17 | `LangTag.parse/__repr__/__len__/merge_equivalent/allforms`, `LangTags.add` | induction over subtags; invariant over add histories |
| C18 | registry line state machine of `iana.py` | induction over records |
| C19-C20 | `_protect`, namespace name conversion | induction |
| C21-C25 | `normalise`, `_calc_hashes`, `_minhash`, draft packing, alternates | tree induction, stable sort lemmas |
| C26-C27 | `_unify_path`, `ensure_path`, `addnode` | refinement to path relation |
| C28-C29 | `serialize_xml` as token stream and text, `TreeBuilder` | round trip by tree induction |
| C30 | both `getldml` | first-match lemma, file system is an argument |
| C31-C37 | `overlay`, `difference`, `flattenlocale`, `_align`, `merge`, alternates | refinement to maps from key paths |
| C38 | `find_parents` | termination measure; the tag database is an argument |
| C39-C41 | `Exemplars.process/analyze/...` | progress measures, invariants; Unicode tables are arguments |
| C42-C44 | `Keyboard.process`, `Context`, `Rules.match` | refinement over key histories, trie induction; induction over written keystrokes for the reading of typed text (T_KeyText) |
| C45 | `Sheet._writeodsitem` | refinement of run-length rows to plain rows |
| C46 | `IterDict` | direct |
| C47 | `flatten_collation` | well-founded induction on the import relation |
| C48-C49 | `allforms`, `matches`, `analyse` of language tags | induction over the forms; termination of the recursion |
| C50 | the reading loop of `Ldml.__init__` on parser events | tree induction over event streams |
| C51 | the shared `namespaces` dictionary of `serialize_xml` | state threaded through; invariant over histories of writes |
| C52 | `addnode` with alternates | invariants of `_promote`, `_add_alt_leaf` |
| C53 | `_overlay_external_resources` | refinement to a map from fonts to types |
| C54 | `Rules.append`, `Keyboard.parse`, `parse_modifiers` | direct: the code always raises |
| C55-C56 | `_process_simple`, `_process_reorder`, `_sort` | simulation between typing and pasting; permutation; stable sorting of the runs of bases and marks (T_Reorder) |
| C57 | the row reader `_odssetup` with the writer | refinement of run-length rows to plain rows |
| C58 | `_setSortKeys`, `CollElement.sortkey`, `expand`, `Collation.sortKey`, with the sharing of lists between keys | invariant over the recursion: each cell holds the key an inductive relation gives |
| C59 | the same with exact rational weights | the offset of a chain is a count of increments and shifts; counts are bounded by the collation |
| C60 | the same | measure: elements without a key |
| C61 | `cmpKeys`, `asICU`, with `parse` (M_AsICU) | the text as a list of pieces; reading each piece; keys by transfer between tailorings with the same order |
| C62 | `convertSimple`, `_insertBefore` (M_Simple) for any first operation of difflib; M_FirstOp gives it from the modelled difflib | the loops as an append of a chain; keys along a chain by induction; the re-based start by the size of the shift (exact rationals) |
| C63 | `Ldml.serialize_xml` with drafts and `_promote` (M_WriteDrafts): the element written and the element left in memory, on top of the writer of C28 | induction over elements and the alternates of their children; the positions of `insert` by an offset invariant; texts by C28 and C51; loading again: packing only regroups the children, and sorting brings a permutation of them back into the same order |
| C64 | `ldml_read`, `ldml_write`, `_get_script`, `need_hex_escape` (M_ExemplarIO) over ICU data as a record of functions | on the list round trip of C01 and the script counts of C39; sort lemmas for the order; fold of `max` for the longest length |
| C65 | `resolve_aliases`, `_copynode` (M_Alias) on a heap of elements, because copies share their children; paths as steps; fuel for the recursion | well-founded induction on a rank that falls along children and aliases; invariant: every element of lower rank is untouched or finished; fuel monotonicity |
| C66 | `Sheet.process` and the ten actions (M_SheetProc): the inner loops over the rows of a table as a state of one loop; the expressions as parsers; an action gives the list of what it writes; `find` of the document is arbitrary | a small inductive specification of which cell belongs to which path; induction over the rows for each kind of table; there and back with C57 |
| C67 | `asSimple` (M_AsSimple): the two loops up the bases with fuel, the tree of dictionaries with their order of insertion, the lines; on the tables of C59 and C62 | the shape of the tree after each line of the list by induction; order by the keys from C62; for any collation, invariants of the tree (grows, holds only known items) |
| C68 | `as_xpath`, `_distattributes`, `remove_path` (M_XPath) on the document and places of C26; elements are taken away from the last to the first because places, not objects, name them | the path as written steps, read back by C26_read_back, followed by C26_found; the removed document as a cut of the tree by a set of places, induction over the sorted places |
| C69 | `readAlltags`, `generate_alltags`, the printed lines (M_AllTags) on the tags and registry of C14-C17 | induction over lines with the registry as map plus objects; the forms of a tag as reduced tags (C48), parsed by C14, merged by C16 |
| C70 | `readIana` (M_IanaTags): the locals `mode`, `currlang`, `tag`, `hasprefix` with "no value yet" as a state, the tags as values until they are added | a record as a unit: the effect of its lines by induction, then induction over records; registered forms by C17 |
| C71 | `Templater.process`, `processattrib`, `xpath`, the turns of a loop (M_Template): trees, the variables as a dictionary that is threaded through; evaluating an XPath and `str` of a result are parameters | induction over the tree with a nested loop over children; composition of children; the loop has one turn because every loop variable is wrapped |
| C72 | `fontid`, `treerules`, `simplerules`, the rules written (M_FontRules), `match1`: the decision tree as a datatype, the dictionaries `already` and `vals` as state | invariant over the leaves: rules are well formed (one name with several values), sound and covering; merging is exactly union |
| C73 | zonetab and `ReadTZData` (M_ZoneTab): the position expression as a list of its matches in backtracking order, angles in seconds of arc, the dictionary of zones, sorting, writing, reading names and padded numbers. Proofs: symbolic matching; induction over the lines; sorting lemmas; padded decimal numbers compare as numbers |
| C74 | `ReadDTD`, `ReadMetadata` (M_Dtd): a DTD as the list of declarations expat reports, state of the handlers, items of the metadata; result is the record `meta` all other Ldml models take. Proofs: numbering lemma, invariants over the declarations, sets by membership |
| C75 | `doit` of fixsldr (M_FixSldr): a document as a tree with attributes, text, comments; each step as a function on the children of the root. Proofs: what every step does to the children with a given tag (`sel`), fusion and commutation of updates for idempotence |
| C76 | `minimise`, `head`, `all_children` (M_Minimise), difflib's `get_opcodes` (M_Difflib, with autojunk): the heads and children as a state; the order of a set as a parameter. Proofs: heads by an invariant of the state (each registered string has its head, edges are ordered so that recursion ends), the operations as a partition of both sequences with a strictly monotone matching, labels as injective |
| C77 | scripts/cldrimport (M_Import): directories as dictionaries; the pool as chunks (the size from multiprocessing) whose rest is lost when something raises, written in any order; merging and writing as parameters. Proofs: each locale has its own path, so that the writes commute; lookups in the output |
| C78 | scripts/sldraddfonts (M_AddFonts): the tables, the cache and the log of requests as a state, the network as a stream of answers, a file as its font elements. Proofs: invariants of the log and of the feature sets (which change in place, but to the same set), one file by induction over its fonts, the tables as the last event |
| C79 | The three readers (M_Likely) on the registry of M_LangTags with shared objects. Proofs: written forms are unambiguous (pieces of lengths 2, 3, 4), so 'every key is a form of its tag' is an invariant that pins down the full forms; tags only grow; C17 gives what add does and C49 what analyse gives |
| C80 | Numbered elements that the builder and the loop both change (M_IterParse). Proofs: a step of the builder and a step of the loop commute (T_IterParse), so every schedule equals 'parse all, then read all' and also 'read at once'; for the latter an induction over the document (T_IterTree) gives exactly the recursion of M_TreeBuilder, on which C29 and C50 rest |
| C81 | M_Keymans on top of ensure_path (M_Paths). One keyboard: the path text is read back as its steps (C26), then either it is found (C27_found) and its text set, or created (C27_created); a relation 'recorded' that composes gives the whole list. Files: induction over the sorted languages with a history of each file |
| C82 | Transition system of batches of locales, as Pool.map_async divides them, each step one read, open or write at the position of that file object (M_FlattenAll). Invariant: of each output some worker that opened it has a correct prefix up to its position, and the file is never longer than the result; induction over the schedule |
| C83 | graphlib.TopologicalSorter with its counters and queue, the names in a text, the stable sort by number, slices (M_BreakText). Invariant of the queue: a node is in it or out of it when all it needs is out; a finite graph where every node left needs another has a cycle; sums of widths for the positions |
| C84 | State machine over the events of iterparse with the stack of open elements and the last one ended; attributes are set by a log of (element number, attribute) (M_CldrComments). The specification reads the annotations off what follows each element in the document; induction over the nesting with the invariant that an open element is never the last |
| C85 | The tree with texts, the two substitutions character by character, test_coverage with the attribute it leaves behind, the counting loops with the state of all entries threaded through, the stable sort (M_Coverage). Induction over the tree, the entries and the list of locales; sums of percentages as rationals |
| C86 | Directories as trees with lists of files and of subdirectories, os.walk, os.path.join and the sort (M_Files). Induction over trees; injectivity of joined paths; independence of the listing order by uniqueness of sorted permutations |
| C87 | The script function by function over the documents of M_Paths (M_AutoNames). The empty step between the slashes is compared with the names of elements; induction over the steps and over the list of files |
| C88 | The two tables, reading of one event with the order of its errors, the loop over events on top of M_Keyboard.process (M_KbdTest). Induction over the events with C42_text for what is seen |
| C89 | Model the list of (input, output) pairs made from the listing and the loop over it on a dictionary of files; prove what each file holds afterwards by induction on the pairs, which are apart because paths are injective in their parts. |
| C90 | Model arguments as strings, texts of nodes, numbers and truth values; words specified by an inductive relation that is shown total and functional; the functions by unfolding and induction over the defaults |
| C91 | Model the classes and need_hex_escape over ICU's tables as parameters; induction over the string with the isolated flag, using M_UnicodeSets.hex_escape; C01 for reading back |
| C92 | Model readlines, search for bytes and the order of opening files; specify files as lines and an end and the patched list as a relation; induction over lines |
| C93 | Model the reader of lines with the words as an attribute that is not there yet; case analysis over the words of the first line |
| C94 | Model the script over an abstract reader and writer of tailorings; specify a key that ends in an asat by a cut of its characters; induction over the keys |
| C95 | Model the script over an abstract document with the exceptions each step can raise; compare runs that differ in one option; case analysis over the steps |
| C96 | Extend the loop of M_Exemplars with the table; specify occurrences by recursion over the text; count the lengths for which a slice equals the string; for any text the counts follow the cut into pieces of C39 (T_Multigraphs2) |
| C97 | Specify the notations as a datatype with what is written and what is denoted; follow the three substitutions token by token, then the parser item by item |
| C98 | Model dates, replacements and the loops over found elements (M_CoverageData); specify dates by their order, replacement by a relation, last-wins tables by decomposition of the list; induction over the lists |
| C99 | Model the notes beside the merge of M_Merge3 and the lines of comments (M_ClashComments); specify the contested elements by paths of keys, comments by production 15 of XML; induction over the documents |
| C100 | The model of M_UnicodeSets; specify the results as sets of characters; the end of every class is the first closing bracket, so an inner class ends the outer one |
| C101 | Model getopts, the expansions of parameters, field splitting and the running of commands with any statuses (M_Publish); specify the commands from the set of options and a place; induction over options and commands |
| C102 | Model the table of namespaces as a dictionary and add_silidentity by ensure_path (M_Writer); reuse the round trip of C28 and the theorems C26/C27 about paths; a lemma that setting the attributes of one element leaves the others |
| C103 | Model the listing, the table of names, and processes that take one file at a time from their batch, failing at any (M_FixRun); invariant over schedules: what was tried is a prefix of every batch |
| C104 | Model the choice of sheets and rows, the filling of rows while they are read, and the script with its options over a table of files (M_SheetMain); compositional lemma on the state between rows |

## Trusted base

* Coq 8.16.1's kernel (with its virtual machine: some concrete examples and refutations use `vm_compute`; `native_compute`
  is not used).
* `Print Assumptions` says "Closed under the global context" for every theorem named in MANIFEST.json: no axiom is used,
  neither one of the standard library nor one of our own. The seven names under `library_axioms` in the verdict of vcheck
  (`Coq.ssr.ssrunder...`) are parameters of a module type in a library file that is loaded, not assumptions of a theorem.
* That the model says what the Python code does. Each definition cites the lines it models so this can be checked by
  reading. The models of Python's own behaviour that everything rests on are in `Py.v` (slices, `split`, `join`, dictionary
  order, stable `sorted`) and, for regular expressions, beside each use: a regular expression is modelled by a hand written
  matcher with the same backtracking order, for that one expression.
* The environment appears as arguments of the model: Unicode properties and case mappings, `hash`, the file system,
  the langtag database, collation keys, the ODF library's nodes, expat's event stream. A theorem with a hypothesis about one
  of these states it (for instance that the joiners do not have combining class 7, in `C41_text`).

## What is modelled

| code | model | not modelled |
|------|-------|--------------|
| UnicodeSets.py | M_UnicodeSets: everything but `reverse` | error output |
| collation.py | M_Collation: escapes, `ducetSortKey`, `stripzero`, `diffLevel`, `SortKey`, `readDucet`, `parse`, `__setitem__`, `itemise`; M_Tailor, M_TailorQ: `CollElement.expand`, `sortkey`, `_setSortKeys`, `Collation.sortKey`; M_AsICU: `cmpKeys`, `asICU`; M_Simple: `convertSimple`, `_insertBefore`; M_AsSimple: `asSimple` | float rounding, `CollElement.prefix` (nothing sets it), the debugging output of `asICU` |
| ducet.py | M_Collation: `readDucet`, `ducetCompare`, `_generateSortKey` | |
| langtags_full.py | M_LangTags, M_AllTags, M_IanaTags: `LangTag`, `LangTags.add`, `readAlltags`, `generate_alltags`, `readIana` | network; the readers of likely subtags, extras and supplemental data are in M_Likely |
| iana.py | M_Iana: the parser | network |
| ldml.py | M_LdmlBase, M_Serialize, M_Normalise, M_Drafts, M_Paths, M_TreeBuilder, M_Flatten, M_FlatColl, M_WriteDrafts, M_Alias, M_XPath: text protection, names, `serialize_xml` (also with drafts), `normalise`, hashes, drafts and alternates, paths, loading, parent locales, collation imports, `resolve_aliases`, `as_xpath`, `remove_path` | reading of the DTD; `uid` on saving; comments in documents; `minhash` beyond order independence |
| ldml_merge.py | M_Merge, M_Merge3, M_Flatten: `difference`, `overlay`, `merge` and helpers, `flattenlocale` | alias resolution (M_Alias), notes on clashes (M_ClashComments) |
| py3xmlparser.py | M_TreeBuilder: `TreeBuilder` (the wrapper of expat is in M_IterParse) | expat itself |
| ldml_keyboard.py | M_Keyboard: all classes | `main` |
| ldml_exemplars.py | M_Exemplars: `process`, `analyze`; M_ExemplarIO: `ldml_read`, `ldml_write`, script, `need_hex_escape` | ICU itself |
| sheet.py | M_Sheet: row reader and writer; M_SheetProc: the four expressions, process and all actions | opening of files, odfpy, normalise and saving |
| utils.py | M_Parents: `find_parents` | file access |
| xmltemplate.py | M_IterDict, M_Template: `IterDict`, `Templater.process`, `processattrib`, `xpath`, `asstr` | lxml's evaluation of XPath, comments in templates, the main program |
| scripts/fontrules, fontmatch | M_FontRules: `fontid`, `treerules`, `simplerules`, choice of the font, rules written, `match1` | scikit-learn's tree, reading documents and looking up tags, JSON, `-R` and `-L` |
| scripts/zonetab; `Ldml.ReadTZData` | M_ZoneTab: everything but the command line | floating point rounding, the format of angles (a parameter), non-ASCII digits |
| `Ldml.ReadDTD`, `Ldml.ReadMetadata` | M_Dtd: handlers of declarations, distinguishing items, serial elements, blocks | expat's parsing, `cls.variables` (unused) |
| scripts/sheetldml 31-56, sheet.py 43-72, 94-103, 222-231 | M_SheetMain: `ods_rows`, `doc_run`, `sheetldml` | csv, odfpy and Ldml as arguments; writing a file does not fail; verbose output |
| scripts/fixsldr 44-51, 88-103, 178-190 | M_FixRun: `to_repair`, `names_table`, `fix_one`, `fix_single`, `pool_step` | interleaving within the writing of one file |
| lib/sldr/ldml.py (small methods of the writer) | M_Writer: `init_ns`, `add_namespace`, `addnode_`, `subelement`, `etwrite`, `add_silidentity` | |
| scripts/sldr-flat-publish.sh | M_Publish: `getopts`, `cluster`, `target`, `script`, `exec`, `publish` | pattern characters in words, what is printed, rsync itself |
| lib/sldr/UnicodeSets.py 223-297 (operators) | M_UnicodeSets: `us_binop`, `class_loop`, `parseitem` | |
| lib/sldr/ldml_merge.py 279-373 (notes), ldml.py 160-161, 183-184 | M_ClashComments: `text_notes`, `attr_notes`, `merge_notes`, `with_comments` | notes when drafts are in use; clashadd |
| scripts/sldrcoverage 9-18, 40-44, 77-87, 131-153 | M_CoverageData: `compare_now`, `locales`, `read_vars`, `read_levels`, `read_calendars`, `read_currencies` | finding the elements in the documents |
| lib/sldr/UnicodeSets.py 28-40, 191-196, 199-321 (escapes) | M_UnicodeSets: `hexescre_sub`, `hexgre_sub`, `simpleescs_sub`, `struni`, `us_parse` | |
| lib/sldr/ldml_exemplars.py 716-721 | M_Multigraphs: `count_prefixes`, `process_multi` | |
| scripts/ldmlmerge | M_MergeScript: `LdmlMerge` (missing files), `find_ldml`, `git_docs`, `file_docs`, `verbose`, `generation`, `ldmlmerge` | parsing of the command line |
| scripts/icupretty | M_IcuPretty: `CollElement`, `ends_asat`, `adddot`, `icupretty` | the block under `if 0:` |
| lib/sldr/hunspell.py | M_Hunspell: `dic_line`, `dic_lines`, `Dic`, `Aff`, `Hunspell` | what follows the first statement of Aff.parse (never reached) |
| scripts/hackldmlattribs | M_HackAttribs: `readlines`, `has_sub`, `hack`, `run` | command line |
| lib/sldr/ldml_exemplars.py 81-169, 216-228 | M_CharClasses: `is_vs`, `is_pua`, `ismark`, `isnumber`, `isformat`, `is_space_separator`, `need_hex_escape` | ICU's tables, normalisation |
| lib/sldr/xmltemplate.py 42-49, 164-200 | M_TmplFun: `asstr`, `split_words`, `fn_firstword`, `fn_findsep`, `fn_choose`, `fn_split`, `fn_default` | fn_doc (a cache of parsed files), fn_replace (regular expressions), fn_dateformat (returns its text) |
| scripts/ldmlnormalize | M_NormalizeAll: `wanted`, `pairs`, `batch`, `normalize` | reading, writing and validating one file are parameters; the texts printed |
| scripts/kbdtest | M_KbdTest: `modifiermap`, `keymap`, `read_event`, `kbdtest` | reading of the test file; the text of messages |
| scripts/sldrautonames | M_AutoNames: `name_at`, `main_chars`, `local_name`, `fill`, `do_doc`, `autonames` | reading, writing, normalising, the table of tags and the parsing of sets are arguments; what is printed |
| lib/sldr/ldml.py 35-49 | M_Files: `walk`, `iterate_files`, `candidates`, `getldml` | symbolic links; directories that cannot be read; loading itself (C63) |
| scripts/sldrcoverage | M_Coverage: `getxpaths`, `sub`, `asregex`, `test_coverage`, `count_level`, `getstats`, `locale_stats`, `doit`, `do_all`, `table`, `coverage` | regular expressions and language tags are arguments; rounding of floats; the list of locales (as in C82) |
| scripts/proccldrcomments | M_CldrComments: `annotation` (the regular expression), `event`, `run`, `build`, `parse`, `write` | name spaces, indents and escapes of the output; `-r`, _unproc_comment, save_as, subelement are not used |
| scripts/icubreaktext | M_BreakText: `refs`, `add_edge`, `release`, `drain`, `static_order`, `rules_text`, `pieces_from`, `break_text` | ICU is an argument; float() is an order-preserving map to integers (no NaN); variables have ids; the search for a cycle is given by its outcome |
| scripts/ldmlflatten | M_FlattenAll: `all_locales`, `begin` (doit), `single_run`, `step`, `pool_step`, `divide`, `get`, `reported` | flattenlocale, add_silidentity and serialize_xml are arguments; making directories always works; --debug output; errors of the pool itself |
| scripts/sldraddkeymans | M_Keymans: `collect`, `report`, `add_keyboards`, `file_path`, `do_langs`, `keymans` | the download with requests; the messages; langtag lookup is an argument |
| lib/sldr/py3xmlparser.py XMLParser; ldml.py Ldml.__init__ 441-477 with shared elements | M_IterParse: `handle`, `default`, `b_op`, `r_step`, `feed`, `load` | expat; `elem.document`; warnings about doctype |
| lib/sldr/langtags_full.py readLikelySubtags, readExtras, readSupplementalData | M_Likely: readers over values from the files | parsing XML and CSV; the dictionary of territories (never read) |
| scripts/sldraddfonts | M_AddFonts: reading tables, URLs, writing | parsing CSS, CSV and JSON; messages, report_css_information; font names with quotes |
| scripts/cldrimport | M_Import: the whole program | making directories and opening files that cannot be made or opened |
| collation.py, difflib.py | M_Minimise: `minimise`, `head`, `all_children`; M_Difflib: SequenceMatcher.get_opcodes of Python 3.11 | `minimise_old`, `getnext` (nothing calls them) |
| scripts/fixsldr | M_FixSldr: doit up to normalise, add_silidentity, regionmap | the rest is in M_FixRun |

## Findings

Behaviour the proofs turned up that a user may not expect. Those marked * have a `_refuted` (or similar) theorem.

Language tags and registry: `zh-yue-Hant` gives a TypeError; `de-1901` gets the script "1901" and `de-CH-1901` the language
"de-CH"; a merge that fails can change hidescript; `str(t)` need not be among the forms; IANA Tag records leak into the
previous subtag; a continuation line after a repeated field is appended character by character.

Documents (ldml.py): an undeclared namespace is dropped by the writer; an unknown draft gives a KeyError; content hashes
collide between text lines and attributes; the two `getldml` differ in search order; text after a comment is lost; a wholly
inherited document raises on load; newlines and tabs in attributes are read back as spaces; "]]>" in CDATA text cannot be read
back; text of an element with children is not written; with topns=False a second write lacks declarations; `change_draft` and
promotion overwrite an existing alternate of the same name; a "/" in an attribute value splits a path; `ensure_path` sets the
text on all elements it creates, may fail on elements with alternates, may create an element it then does not find, and may
overwrite the text of a better alternate.

Merging: `overlay` raises IndexError when only the other document has external resources; an own font without types is dropped
when the other has a font; an element's alternates are dropped by `difference` when the other has none; drafts are compared as
int with str; the other side's text change is lost when it also adds an alternate; identical changes are reported as clashes;
two-file ldmlmerge crashes; alternates of elements only the other document has are lost; parents of parents are not followed.

Keyboards: `Rules.append` always raises for a non-empty pattern, so no transform can be loaded; optional modifiers raise; all
alternatives of a modifier attribute merge into one combination; deleted text reappears at the next key; "before" contexts
never match; rules of three characters do not fire when typed unless partial matches are hidden.

Tailorings: * two resets at the same base give equal keys; * `&a < a` raises AttributeError, an empty base IndexError; * an
expansion that names an element without a key raises; * what follows an element with an expansion that sorts later lands after
the expansion; * `sortKey` before the keys are calculated raises; * a forced calculation on circular bases recurses without
end; an operator without "<" other than "=" changes the tertiary weight; `[before]` at a level where the base's weight is zero
puts the element after its base.

Writing tailorings: * with the default ordering, an element put `[before]` a tailored element is written before that one is
defined, and the result has no keys; * an element can be written after one that agrees with its base only at the level of the
relation, and then gets other lower weights; * what follows the second occurrence of an element is attached to the first;
* ampersands and operators are escaped, but reading splits at them before it undoes escapes; * five or more "<" count as
equality and are written as three; expansions are passed on to the elements that follow and written out; `lastbefore` and `skip`
are never changed; level 4 never agrees in `cmpKeys`, as keys have three levels.

Simple lists: * a list whose first item comes again makes a cycle of bases and raises AttributeError; * `strict` does not stop a
word on its own from being expanded to its case forms ("and" binds stronger than "or"); * any other repeated item is skipped,
and what follows takes the place in the list it had; * re-basing the start can turn a secondary or tertiary difference into a
primary one.

The file of equivalent tags: * no tag read from langtags.txt hides its region (`merge_equivalent` sets `hidescript`, "yes really
script", when the other form has no region), so `str(LangTags()['aa'])` is "aa-ET" (C69_object, C69_short_form_refuted); * the tag of
"aa-Ethi = ... = aa-Ethi-ET" has the short form "aa-ET", which is the Latin tag (C69_other_tag_refuted), that of
"aae-Grek = aae-Grek-IT" has "aae-IT", which is not registered (C69_no_tag_refuted); * the main program reads langtags.txt before
it writes the file anew, and so drops forms (C69_written_again_refuted); * a blank line is an IndexError (C69_blank_line_raises).

The IANA registry: * a registry file that ends with a variant is an AttributeError (`self.add(None)`), and the last variant's
prefixes are then filed but it is never listed as global (C70_last_variant_raises); * a first variant without a prefix is an
UnboundLocalError on `hasprefix` (C70_first_variant_raises), which the file in the package avoids only by its order (C70_order_refuted).

Templates: * attributes computed on an element without children stay uncomputed; * text behind a template element is lost;
a loop variable that selects several strings gives one turn with the text of the list; * loop variables stay set behind the
loop; * a path whose value is a number or a boolean is a TypeError; when evaluating a path fails, the code reads `e.message`,
so the error is an AttributeError without path or line.

Font rules: * a rule keeps only the subtags that must be there on the way to a leaf, not those that must not, so a language may
get the font of another leaf (C72_same_font_refuted); * the leaf that asks for nothing is left out, so most languages get no font
at all (C72_default_refuted).

Time zones: * in southern latitudes and western longitudes minutes and seconds are added to the negative degrees, so Sydney is put
at -32°08' instead of -33°52' (`C73_south_west`, `C73_south_west_refuted`; the tzones.csv in the repository shows it); * the
longitudes of Etc/GMT zones always get a turn added, up to 540° (`C73_gmt`, `C73_gmt_refuted`).

Class data: * the handler for comments in the DTD is never set (and would see no current attribute), so the marks METADATA, VALUE
and BLOCK do nothing (`C74_comments_ignored`); every declared attribute, `references` and value attributes included, then
distinguishes elements, even one that the metadata exclude, since excluded attributes are taken away before the declared ones
are added (`C74_all_declared`, `C74_metadata_mark_refuted`).

Repairing documents: * only the first orientation, status and regionInfo are seen (`C75_second_refuted`); * the region Guinea is
given the code GW of Guinea-Bissau (`C75_guinea_refuted`); * with --debug a string and bytes are added, so that every document
raises TypeError (`C75_debug`), and since the result of the pool is never looked at, nothing is reported unless --single is given.

Minimising: * entries are dropped when difflib matches them, even if the character their chain starts from is what has to move:
`&h < b < c < d` is minimised to nothing (`C76_order_refuted`); * characters outside the tailoring are not looked at (the argument
alphabet is unused): `&a < c` is dropped, and b comes before c again (`C76_gap_refuted`); * when two keys are equal the result
depends on the order of a set (`C76_hash_refuted`); * `&a < b = c` raises IndexError (`C76_equal_raises`), a cycle RecursionError.

Importing: * references are taken from the last file read instead of the merged document (`C77_references_refuted`);
* nobody asks for the results of the pool, so that exceptions vanish together with the rest of their chunk of locales
(`C77_chunk_refuted`); * files in another directory than that of their first letter, or ending in .XML, are never removed
(`C77_misplaced_refuted`); * a source ab.XML is not read but protects an old ab.xml (`C77_upper_refuted`); * --hg splits bytes
by a string, which raises: nothing is written (`C77_hg`).

Fonts: * an old default stays, so that a file may have two (`C78_two_defaults_refuted`), and a first font of type 'ui' leaves
it with none (`C78_no_default_refuted`); * which font of both tables is first depends on hashing (`C78_hash_refuted`); * old
features stay when the locale has none (`C78_stale_refuted`); * URLs that are refused are asked for again for every file
(`C78_asked_again_refuted`); * anything but an HTTPError ends the run, and so does a CJK font whose name has no space
(`C78_ends_refuted`).

Likely subtags: * a short tag stays bare if it and a longer form had been registered apart (`C79_from_refuted`); * a row of the
extras for a bare language does not register that language (`C79_extras_refuted`): only the reader of CLDR's file sets hideboth.

**C81, the report of sldraddkeymans.** With -o the script raises ValueError at the first row for every nonempty input: rows have a key 'id' that is not among the field names ('oskfontfamily' is not either). Only the header is written and no SLDR file is updated. C81_report_refuted proves it for all data.

**C82, ldmlflatten.** (1) If the output directory is an input directory, results depend on the order of the workers (C82_inplace_refuted). (2) doit catches only errors of flattenlocale; with --git a source without a commit makes `(rev, date) = clog.split` raise ValueError, which pool.map_async(..).get() raises again, so that the list of failed locales is never printed (C82_git_refuted). (3) -s is not only a matter of processes: it also flattens collations, and stops at the first locale that cannot be flattened instead of reporting it (C82_single_refuted).

**C83, icubreaktext.** (1) The positions of ICU count UTF-16 code units, the slices of Python code points, so a character past U+FFFF moves every later break (C83_astral_refuted). (2) With --noflatten the document is loaded and not used, and no output is written, not even an empty file; (3) without a segmentation of that type `sys.stderr(...)` raises TypeError instead of saying so (C83_noflatten_refuted).

**C84, proccldrcomments.** (1) An annotation before any element has ended raises AttributeError (`last` is None) (C84_fails). (2) Text after a comment inside an element is lost: it is the tail of the element "!--" that is removed (C84_text_refuted). (3) --reverse is read and not used.

**C85, sldrcoverage.** (1) `e.text != ""` is true of a missing text, so an element whose children follow its start tag without white space hides them all, and the count depends on the layout of the file (C85_layout_refuted). (2) `reseng.get(k)` is None for a level English does not cover; with --level this is always so, after all the work, and the output has only its heading (C85_level_refuted, C85_english). (3) asregex of a list of one gives the list, so that re.sub raises TypeError for territories with one calendar (C85_calendar_refuted).

**C86, getldml.** The list of directories is run through twice, first without and then with the subdirectory for the letter, so that a locale of the first directory in its subdirectory is overruled by a file directly in a later directory (C86_priority_refuted). A root directory that is mistyped is not an error: nothing is visited (C86_missing).

**C87, sldrautonames and sldrcoverage.** The scripts use `.//` as in ElementTree, but Ldml.find splits paths at every slash and compares the empty step with the names of children, so `l.find('.//...')` is None for every document (C87_descendants). sldrautonames therefore skips every file and does nothing (C87_nothing_refuted), and the source column of sldrcoverage is always empty (C87_source_refuted).

**C88, kbdtest.** (1) `sys.exit(errors)` gives the number of failures modulo 256, so 256 failures are success (C88_status_refuted). (2) An event without an expected text is skipped before the key is pressed, so later tests see another text than the file describes (C88_untyped_refuted). (3) The modifiers altgr and rctrl are called altR and ctrlR, but names of modifiers in keyboards are made lower case when they are read, so such keystrokes never have a text (C88_right_refuted).

**C89, ldmlnormalize.** (1) A plain file of another kind in the input directory (a README, .DS_Store) makes `os.listdir` raise NotADirectoryError before anything is processed (C89_stray_refuted). (2) `--validate` parses the input path after saving, so with another output the unnormalised input is judged: an invalid result goes unnoticed and a repaired one is rejected (C89_validate_refuted). (3) Directories of the output are not created; the script stops at the first one missing with part of the tree written (C89_stops).

**C90, functions of templates.** (1) `default` compares with '' only, so an element without text (`<a/>`, text None) ends the search and hides the defaults after it; firstword, split and findsep raise AttributeError for it (C90_no_text_refuted). (2) firstword tests for the empty text but not for white space (C90_blank_refuted); the error reaches the user as an AttributeError for `e.message` (C71).

**C91, need_hex_escape.** (1) `is_pua` starts the areas of planes 15 and 16 at U+FFF80 and U+10FF80 instead of U+F0000 and U+100000, so nearly all of their characters are written raw (C91_pua_refuted). (2) `_hex_escape` counts an escape as a base, so ZWNJ followed by an acute is written as the escape of ZWNJ, ending in the digit c, directly followed by the acute; composing the file then destroys the escape (C91_mark_after_escape_refuted). (3) `is_vs` leaves out the Mongolian variation selectors (C91_vs).

**C92, hackldmlattribs.** The output is opened for writing before the input is read: naming the same file twice empties it (C92_same_file_refuted) and a mistyped input empties the output (C92_missing_refuted). The script is not idempotent (C92_twice_refuted).

**C93, hunspell.py.** `list(inf.readlines)` lacks its call; `n ==` compares with an undefined name; `self.words` is set after the file is read; a word with classes is cut into four parts, three are asked for. No dictionary can be read (C93_no_dictionary_refuted, C93_affixes_refuted).

**C94, icupretty --adddot.** `CollElement(k, 4)` lacks the required argument `before`: TypeError for every tailoring with a key that ends in an asat (C94_dots_refuted), no effect for others (C94_dots_nothing).

**C95, ldmlmerge.** The element generation is made but never attached and its date never set (C95_generation_refuted). `StringIO(bytes)` and an unbound `base` make --git fail always (C95_git_refuted). `codecs.getwriter` wraps a stream of text: without -o the first write fails (C95_screen_refuted); the same in icupretty (C94_screen_refuted). A mistyped first file is an empty document (C95_missing_refuted).

**C96, maxmultigraphs.** Slices near the end of the text are shorter than asked for and counted again for each length: the last character of every text counts three times too often (C96_end_refuted). After a final given exemplar the empty string is counted (C96_empty_refuted).

**C97, escapes.** The hex escapes are replaced in the whole text before backslashes are looked at, so an escaped backslash followed by u0041 gives A (C97_backslash_u_refuted); spaces are removed after that, so a space given as an escape is lost and a backslash before a space escapes the next character (C97_space_refuted); \u{5c} raises ValueError (C97_braced_backslash_refuted).

**C98, sldrcoverage.** Dates are compared part by part and only as far as needed, so a date without month works until its year is the current one and then raises IndexError (C98_year_refuted).

**C99, merge notes.** Comments are written without looking at what is in them: a clash note quotes the texts, so a text with two hyphens (`a--b`) makes a document that cannot be read again, and a text with `-->` puts elements into it (C99_comment_refuted, C99_note_writable). The same change on both sides is noted as a clash, and so is an attribute that only this side changed (C99_same_change_refuted, C99_one_sided_refuted).

**C100, operators of UnicodeSets.** A set ends at the first closing bracket, also if that closes a set within it. So `[[abc]-[b]]` is a, b and c, and the branches for operators between two sets are never reached (C100_nested_refuted). `[^ab]` gives a and b (C100_negated_refuted), `[a|[^b]]` raises AttributeError because - of two sets is a plain set without negate (C100_or_negated_refuted), and `[a-[bc]]` is a and a hyphen (C100_minus_refuted).

**C101, publishing.** `sldr-flat-publish.sh -d` removes and rebuilds `flat` and `unflat` (C101_dry_run_refuted). The script goes on after a failure: it uploads with `--del` what a failed ldmlflatten left, and ends with status 0 (C101_commands, C101_failures_refuted). An empty target uploads to `/local/ldml/sldr/` on the local machine (C101_empty_refuted).

Keyboard settings: transformFailure=omit and fallback=omit do not leave out the character that has no rule: nothing of the
layer is seen from it on (C44_omit_refuted), and typing more does not help unless a rule comes to apply. `escape` with
allchars=True hex escapes a mark after an ASCII letter, since only other characters count as bases (C05_allchars_escapes).

**C04, members that start with a backslash.** Iterating `flatten` over a set with a reference to a group (`\1`) or an escaped backslash ends with AttributeError as soon as such a member would be yielded: the parsed sequence is asked for a method `group` that it does not have (C04_backslash_refuted).

**C102, the writer.** `ETWriter.subelement` uses the name `k` after its comprehension and always fails with NameError; `ETWriter(root)` without namespaces fails with AttributeError, since the class has no `namespaces` (C102_fails_refuted). `add_namespace` accepts a prefix twice; elements of the first namespace are then read back in the second (C102_shared_prefix_refuted). `etwrite` without namespaces loses every namespace (C102_etwrite_refuted).

**C103, fixsldr.** map_async is never asked for its result: failures are silent, and the rest of the batch is not repaired (C103_silent_refuted). Files of the same name in two directories overwrite each other in the output (C103_same_name_refuted). `-l aa` writes an empty document named `aa` (C103_locale_refuted).

**C63, order after reading again.** Saving drops a draft that is the default. The draft takes part in the order of siblings, so a file that is written, read and written again can have its elements in another order (C63_reorder_refuted).

**C104, sheetldml.** The state of process() goes over the ends of sheets: a table at the end of one sheet without a blank row takes in the first rows of the next (C104_spill_refuted). A missing LDML file, or a misspelt name, gives the template back without an error, although the comment in the code expects FileNotFoundError (C104_missing_refuted). `-o ""` writes over the LDML file that was to be read (C104_empty_output_refuted).

Tags and keys: `x-abc-US` has the language `x-abc-US` and no region, because all subtags of two or three letters after x are
taken (C14_private_use); `de-CH-Latn` is the language `de-CH` with the script as it is written (C14_late_script). A key that
meets a rule with an error is not kept, so what is shown next has no trace of it (C44_shown, C44_history).

Merging with drafts (C37_both_new, C37_own_change): an element that both sides add is taken from the other side when the drafts
are the same, and the merge does not report this as a change; an edit of this side whose draft is worse than that of the base
is undone, and because the edit is filed as an alternate of the base and not of the result, it is lost.

Reordering with adjacent bases (C56): two bases side by side are in one run, so a mark with an order below 0 after the second goes before the first one too (C56_adjacent_bases_refuted). Also, any word but "false" in tertiary_base or prebase counts as true, so prebase="0" means true (C56_codes).

Paths of elements: * the path of an element also finds a sibling with one more distinguishing attribute, and `find` then gives
the wrong one (`C68_extra_attribute_refuted`); * the path of an element in the SIL namespace, whose name has slashes, finds
nothing (`C68_namespace_refuted`); removing alternates by path always raises (`C68_alternates_raise`).

Simple lists written: * a first line of one item without case forms comes out after the second line (`C67_first_line_refuted`);
* two elements that are each other's base make it run for ever (`C67_circle_refuted`); * elements equal to their base, expansions
and positions before the base are lost (`C67_same_refuted`, `C67_lost_refuted`); * a mark with case forms is written on two lines
(`C67_once_refuted`).

Spreadsheets: * a table that follows another without a blank row is read as data of the first (`C66_adjacent_refuted`); * an
element without text is written to its cell as None (`C66_no_text_refuted`), because `None != ""`; * a row with a path and no
third cell raises IndexError and a table without `$row` AttributeError, and the rest of the sheet is lost
(`C66_short_refuted`, `C66_bad_table_refuted`); * with two attributes in the last step only the first counts, so the text of the
element is set in place of the second (`C66_second_attribute_refuted`).

Aliases: * the inherited children are inserted after the sibling that follows the alias (`C65_order_refuted`); * the copies are
shallow, so what is below them belongs to both places and a change of one changes the other (`C65_tree_refuted`); * an own
element beside an alias does not hide the inherited one with the same tag and attributes, both remain
(`C65_override_refuted`); * an alias that leads to the element it is in never ends when there are other children
(`C65_self_refuted`), and two aliases of which one leads home raise ValueError (`C65_twice_refuted`); `Element.copy` exists only
in python up to 3.11.

Exemplars taken out: * an object that has processed no text has the script `''`, so every letter is dropped from the sets it
gives, also when the sets were just given to it (`C64_no_text`); * characters of script Common and Inherited are counted with
the others, so a text with more spaces, digits and punctuation than letters makes Common the script and all letters are
dropped (`C64_common_refuted`); * an empty exemplar raises IndexError (`C64_empty_raises`).

Saving with drafts: * an alternate keeps the mark `tempnode` it got when it was written: if it is promoted later the next save
writes it and then removes it from the document, and the save after that lacks it; * the alt of an alternate below an element
with an alt gets that alt as a prefix, again each time the file is read and written; * the draft of an element with children is
not written, so that another alternate can come first when the file is read; * a serial element with an alt would be written
twice and then dropped (one object in two places; seen in the code, not modelled).

Collation imports: a statement swallows text up to the last bracket of the line; cyclic imports recurse without end; text around
an import can form a new statement. Templates: lists are never iterated. Spreadsheets: a repeated non-empty cell loses its other
columns on writing; a column past the end overwrites the last cell; runs of ten or more are read as one column. Parents: a tag
that begins with a hyphen loops forever, an unknown tag raises.

Exemplars: * of two given digraphs in a row the second is not seen; * marks on a given base are skipped; * a capital before a
nukta stays a capital; * the nukta does not go with the base when another mark comes first; * counts grow when a cluster is
split at several places; * `analyze` cannot be called twice; * ignorable characters after a mark without a base are not put into
auxiliary. The comment in `make_index` that empty exemplars occur is not true of what `process` and `analyze` make (C41_ok).

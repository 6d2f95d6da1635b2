{"id": "C01", "title": "Exemplar lists survive the UnicodeSet text form", "statement": "us2list(list2us(l, ucd)) is exactly the set of the strings in l, whatever characters the ucd object asks to be hex escaped (as long as it does not ask for syntax characters), for strings that are non-empty, contain no U+0020, and in which a backslash is either the whole string or is followed by something other than ']' and other than the tail of a hex escape, with the string '\\' not directly followed by the string ']'. In particular it holds for all strings with no space and no backslash. Outside that guard the round trip is false: a space is dropped, and backslashes can be mis-decoded.", "quantifier": "all finite lists of non-empty strings over all code points; all hex-escape policies", "why_tests_cant": "the set of lists and of characters is unbounded and the text passes through two regular expression rewrites and a recursive parser whose interactions depend on neighbouring characters", "anchors": ["lib/sldr/UnicodeSets.py:list2us", "lib/sldr/UnicodeSets.py:us2list", "lib/sldr/UnicodeSets.py:parse", "lib/sldr/UnicodeSets.py:parseitem"]}
{"id": "C02", "title": "UnicodeSet ranges denote exactly their code points", "statement": "us2list('[' + lo + '-' + hi + ']') is the set of the single characters with code point between lo and hi inclusive (empty when hi < lo) for any characters lo, hi that are neither UnicodeSet syntax nor a space. A second operator in the same class is lost ('[a-c-e]') or raises ('[a|b|c]').", "quantifier": "all pairs of non-syntax code points", "why_tests_cant": "there are about 10^12 pairs", "anchors": ["lib/sldr/UnicodeSets.py:parseitem", "lib/sldr/UnicodeSets.py:us2list"]}
{"id": "C03", "title": "The UnicodeSet parser terminates on every input", "statement": "parse(s) on any string returns a sequence or raises IndexError, ValueError, AttributeError or TypeError; it never loops, because every parsed item consumes at least one character.", "quantifier": "all strings", "why_tests_cant": "non-termination cannot be observed by a finite test, and the input space is infinite", "anchors": ["lib/sldr/UnicodeSets.py:parse", "lib/sldr/UnicodeSets.py:parseitem"]}
{"id": "C04", "title": "flatten enumerates a UnicodeSet sequence", "statement": "Iterating flatten(s), for any UnicodeSet text s that parses and whose sets have no member starting with a backslash, terminates and yields, one for each choice and without repeating a choice, the concatenation of every choice of one member from each set in order, except that the choice of the least member of every set is never yielded. Refuted for the others: if a choice that would be yielded has a member that starts with a backslash, iterating ends with AttributeError.", "quantifier": "all strings that parse to sequences of sets", "why_tests_cant": "sizes of the sets and length of the sequence are unbounded", "anchors": ["lib/sldr/UnicodeSets.py:flatten"]}
{"id": "C05", "title": "Tailoring escapes are undone by unescape", "statement": "unescape(escape(s)) == s for every string s in which no backslash is directly followed by U and 8, or u and 4, upper case hex digits; for such strings the identity fails. With allchars=True the marks before the first character that is neither a mark nor ASCII become hex escapes of 4 or 8 digits and the rest is escaped as without it; the identity fails for isolated marks with a lower case hex digit.", "quantifier": "all strings", "why_tests_cant": "the failure depends on what follows a backslash in an unbounded string and on how many escapes precede it", "anchors": ["lib/sldr/collation.py:escape", "lib/sldr/collation.py:unescape"]}
{"id": "C06", "title": "Sort keys are totally ordered up to equivalence", "statement": "`<` on sort keys of three levels is irreflexive, transitive and its incomparability is an equivalence relation (ignoring trailing zeros on each level), so sorting any list of keys with it is well defined; the reported difference level is the first differing level and is antisymmetric in sign.", "quantifier": "all triples of sort keys", "why_tests_cant": "infinitely many keys of unbounded length", "anchors": ["lib/sldr/collation.py:diffLevel", "lib/sldr/collation.py:stripzero", "lib/sldr/collation.py:SortKey.cmp", "lib/sldr/collation.py:SortKey.__lt__"]}
{"id": "C07", "title": "Sort key equality operators", "statement": "For sort keys a, b of three levels a == b is never true, a != b always true, and a > a holds: equivalent keys are reported as 'greater at level 4' in both directions. cmpKey(a,b,3), which the library uses instead, is an equivalence relation.", "quantifier": "all pairs of sort keys", "why_tests_cant": "universally quantified negative statement", "anchors": ["lib/sldr/collation.py:SortKey.__eq__", "lib/sldr/collation.py:SortKey.__gt__", "lib/sldr/collation.py:cmpKey"]}
{"id": "C08", "title": "itemise partitions its argument", "statement": "Concatenating the strings yielded by itemise(s) gives s back, and every item after the first is either a single character or a known element of the tailoring or of the DUCET.", "quantifier": "all collations, DUCET tables and strings", "why_tests_cant": "unbounded strings and dictionaries", "anchors": ["lib/sldr/collation.py:Collation.itemise"]}
{"id": "C09", "title": "Building a DUCET sort key terminates and segments by longest match", "statement": "ducetSortKey terminates for every string and table; the resulting levels are the level-wise concatenation of the keys of successive longest known prefixes, with zeros removed unless the string is a single character; the text from the first character at which no prefix is known onwards contributes nothing.", "quantifier": "all tables, all tailoring lookups, all strings", "why_tests_cant": "loop termination and an unbounded segmentation", "anchors": ["lib/sldr/collation.py:ducetSortKey"]}
{"id": "C10", "title": "Parsing a tailoring adds one entry per relation and never overwrites", "statement": "Each relation operator parsed adds exactly one key to the Collation, all earlier keys keep their value, and a repeated element gets a fresh key made of the element followed by spaces; direct assignment to an existing key raises KeyError and changes nothing.", "quantifier": "all histories of parse calls and assignments on one Collation", "why_tests_cant": "depends on the whole history of insertions", "anchors": ["lib/sldr/collation.py:Collation.parse", "lib/sldr/collation.py:Collation.__setitem__"]}
{"id": "C11", "title": "ducetCompare is antisymmetric", "statement": "For known strings ducetCompare(d,a,b) == -ducetCompare(d,b,a), it is 0 for a == b, its value lies in {-4,-1,0,1,4}, and a missing element gives 'unknown' in both directions.", "quantifier": "all DUCET tables and pairs of strings", "why_tests_cant": "unbounded tables and strings", "anchors": ["lib/sldr/ducet.py:ducetCompare", "lib/sldr/ducet.py:_generateSortKey"]}
{"id": "C12", "title": "DUCET file entries are filed under the right characters", "statement": "For a line whose key field lists four-digit code points, readDucet files the weights under exactly that character sequence; for a five or six digit (supplementary) code point it files them under the character of its first four digits, overwriting that character's entry.", "quantifier": "all key fields", "why_tests_cant": "all code point sequences of any length", "anchors": ["lib/sldr/collation.py:readDucet", "lib/sldr/ducet.py:readDucet"]}
{"id": "C13", "title": "Language tags: underscore and hyphen are interchangeable", "statement": "LangTag(x) is the same tag whichever of '-' and '_' is used at each separator position of x.", "quantifier": "all strings, all choices of separators", "why_tests_cant": "exponentially many separator choices over unbounded strings", "anchors": ["lib/sldr/langtags_full.py:LangTag.parse"]}
{"id": "C14", "title": "Language tags: full form round trip", "statement": "For a tag with a 2-3 letter lower case language, title case 4 letter script, upper case region, lower case variants of at least 4 letters and sorted lower case extensions, repr(LangTag(repr(t))) == repr(t) and every component is recovered; parsing is idempotent on its own full form. A tag that begins with x takes all subtags of two or three letters up to a script as its language, as they are written, so a region is only read after a script; a script that comes after a region makes the region a part of the language, and script and region are then kept as they are written.", "quantifier": "all well-formed component combinations, any number of variants and extensions", "why_tests_cant": "unbounded number of variants, extensions and their members", "anchors": ["lib/sldr/langtags_full.py:LangTag.parse", "lib/sldr/langtags_full.py:LangTag.__repr__"]}
{"id": "C15", "title": "Language tags: length counts the subtags of the full form", "statement": "len(t) is the number of hyphen separated subtags of repr(t) for every tag with a simple language.", "quantifier": "all tags", "why_tests_cant": "unbounded variants and extensions", "anchors": ["lib/sldr/langtags_full.py:LangTag.__len__", "lib/sldr/langtags_full.py:LangTag.__repr__"]}
{"id": "C16", "title": "merge_equivalent never changes a component that is set", "statement": "If self.merge_equivalent(tag) returns True then every component self had (script, region, variants, each extension) is unchanged and the missing ones come from tag; if it returns False then script, region, variants and extensions are all unchanged, although hidescript may have been changed.", "quantifier": "all pairs of tags", "why_tests_cant": "combination space of optional components is infinite", "anchors": ["lib/sldr/langtags_full.py:LangTag.merge_equivalent"]}
{"id": "C17", "title": "Tag registry: adding never forgets a form", "statement": "After any sequence of add calls every key present earlier is still present; all forms of the tag just added are present; keys other than the forms of the added tag keep their mapping.", "quantifier": "all registries and all sequences of added tags", "why_tests_cant": "histories of unbounded length", "anchors": ["lib/sldr/langtags_full.py:LangTags.add", "lib/sldr/langtags_full.py:LangTag.allforms"]}
{"id": "C18", "title": "IANA registry parsing keeps every field of every subtag", "statement": "For a registry file of records with Type and Subtag fields and single valued fields, each subtag maps to exactly the fields of its record, with Description a list in file order; a record with Tag instead of Subtag adds its fields to the previously read subtag.", "quantifier": "all registry files (sequences of records)", "why_tests_cant": "unbounded files; the leak depends on the record before", "anchors": ["lib/sldr/iana.py"]}
{"id": "C19", "title": "XML text protection is lossless", "statement": "Expanding the five predefined entities in the protected form of any string gives the string back, and the protected form contains no markup character, so protection is injective.", "quantifier": "all strings", "why_tests_cant": "infinite input space", "anchors": ["lib/sldr/ldml.py:ETWriter._protect"]}
{"id": "C20", "title": "Namespaced names convert back and forth", "statement": "For every declared namespace, converting ns:name to {uri}name and back gives the same name; names with undeclared prefixes are left unchanged.", "quantifier": "all names, all namespace tables with unique prefixes", "why_tests_cant": "infinite input space", "anchors": ["lib/sldr/ldml.py:localns", "lib/sldr/ldml.py:reverse_localns", "lib/sldr/ldml.py:ETWriter._reverselocalns", "lib/sldr/ldml.py:ETWriter._localisens"]}
{"id": "C21", "title": "normalise only reorders siblings", "statement": "normalise leaves at every element the same multiset of (normalised) children, sorted by the DTD order key, and a second normalise changes nothing (without draft packing). Siblings with the same name are in the order of their attributes: taken in DTD order, the first difference in a name, or in a value by its place in the DTD or in lower case, decides.", "quantifier": "all element trees, all DTD order tables", "why_tests_cant": "unbounded trees", "anchors": ["lib/sldr/ldml.py:Ldml.normalise"]}
{"id": "C22", "title": "Element hashes do not depend on attribute order", "statement": "The key hash and the content hash of an element are the same for every ordering of its attributes, always fit in 64 bits, and the key hash depends only on the tag and the distinguishing attributes.", "quantifier": "all element trees, all string hash functions, all attribute permutations", "why_tests_cant": "factorially many permutations and an arbitrary hash function", "anchors": ["lib/sldr/ldml.py:Ldml._calc_hashes", "lib/sldr/ldml.py:_minhash.update", "lib/sldr/ldml.py:_minhash.merge"]}
{"id": "C23", "title": "Draft packing keeps the best draft for each alternate", "statement": "After normalise with drafts, among siblings with the same key hash exactly one is kept in the tree (unless its tag is serial), it is the one without alt if there is one and otherwise the one with the best draft; for every alt value the node kept, in the tree or as alternate, has the best draft among the originals with that alt, and no (key, alt) pair is lost.", "quantifier": "all lists of siblings with arbitrary draft and alt attributes", "why_tests_cant": "unbounded sibling lists", "anchors": ["lib/sldr/ldml.py:Ldml.normalise", "lib/sldr/ldml.py:Ldml.get_draft"]}
{"id": "C24", "title": "Draft levels are ordered and bounded", "statement": "get_draft is between 0 (approved) and 6 (suspect) for every element and default; unknown draft names rank as 'generated' (5); a missing draft ranks as the default or else as the document default.", "quantifier": "all attribute values", "why_tests_cant": "arbitrary strings", "anchors": ["lib/sldr/ldml.py:Ldml.get_draft", "lib/sldr/ldml.py:draftratings"]}
{"id": "C25", "title": "Promoting alternates never loses a node", "statement": "change_draft keeps every node reachable as primary or alternate of an element when the alternate name given for the old primary is free (or is the name of the node promoted), and afterwards no alternate has a strictly better draft than the primary. When the name is taken by another alternate, that alternate is overwritten and lost.", "quantifier": "all elements with any number of alternates", "why_tests_cant": "unbounded alternates and histories", "anchors": ["lib/sldr/ldml.py:Ldml.change_draft", "lib/sldr/ldml.py:Ldml._promote", "lib/sldr/ldml.py:Ldml._find_best", "lib/sldr/ldml.py:Ldml._add_alt_leaf"]}
{"id": "C26", "title": "Looking something up never changes the document", "statement": "find, findall and ensure_path(dontadd=True) leave the tree unchanged and return exactly the elements reached by the steps of the path (tag equal, every listed attribute equal) in document order; a path written from tags and attribute tests is read back as those steps unless an attribute value contains a slash.", "quantifier": "all trees and all paths", "why_tests_cant": "unbounded trees and paths", "anchors": ["lib/sldr/ldml.py:Ldml.find", "lib/sldr/ldml.py:Ldml.findall", "lib/sldr/ldml.py:Ldml._unify_path", "lib/sldr/ldml.py:Ldml._process_path"]}
{"id": "C27", "title": "ensure_path finds or creates", "statement": "If the path can be found, ensure_path(path) changes nothing and returns what findall returns (with a text and no draft: those of them that have the text, if any). If not, and the tests of the path are on key attributes, then afterwards exactly one element is found by the path, only elements on the path were added and every earlier element remains findable. For a path testing other attributes the path may still not be found; asking for a different text may overwrite a better alternate; asking for a text with a draft raises AttributeError if the element has alternates.", "quantifier": "all trees and all paths", "why_tests_cant": "unbounded trees and paths, including partially existing ones", "anchors": ["lib/sldr/ldml.py:Ldml.ensure_path", "lib/sldr/ldml.py:Ldml._unify_path", "lib/sldr/ldml.py:Ldml._add_inserted_node", "lib/sldr/ldml.py:Ldml.addnode"]}
{"id": "C28", "title": "Writing a document and reading it back preserves it", "statement": "Reading the text produced by serialize_xml gives back the same tree of tags, attributes and text (up to the whitespace normalisation of normalise), for every tree without comments and with plain names.", "quantifier": "all element trees", "why_tests_cant": "unbounded trees with arbitrary text and attribute values", "anchors": ["lib/sldr/ldml.py:ETWriter.serialize_xml", "lib/sldr/py3xmlparser.py:TreeBuilder"]}
{"id": "C29", "title": "The tree builder turns any balanced event stream into its tree", "statement": "Feeding TreeBuilder the start/data/end events of a tree yields that tree, with adjacent data joined; unbalanced streams raise an assertion and never give a tree.", "quantifier": "all event sequences", "why_tests_cant": "unbounded nesting and interleaving", "anchors": ["lib/sldr/py3xmlparser.py:TreeBuilder"]}
{"id": "C30", "title": "The search order for locale files is fixed", "statement": "getldml returns the first existing file in the documented order (flat directories first then first-letter directories in ldml.getldml; flat then first-letter per directory in ldml_merge.getldml) and None iff none exists.", "quantifier": "all file systems, directory lists and locale names", "why_tests_cant": "all file systems", "anchors": ["lib/sldr/ldml.py:getldml", "lib/sldr/ldml_merge.py:getldml"]}
{"id": "C31", "title": "Overlay is a left biased union", "statement": "For documents whose siblings have distinct keys in the other document, no font resources in it, and content hashes that do not collide: self.overlay(other) returns normally; every element of self stays at its key path with the same tag, attributes and alternates, and with its own text unless that text is the three up arrows (inherited), which becomes the other's text; the places added are exactly those of other reached through shared elements without passing a blocked one (identity, collation), and what is added is other's subtree; without blocked or alias elements the result has the union of the key paths. If other has a font resource list at a place where self has none, overlay raises IndexError.", "quantifier": "all pairs of trees", "why_tests_cant": "unbounded trees", "anchors": ["lib/sldr/ldml_merge.py:LdmlMerge.overlay", "lib/sldr/ldml_merge.py:LdmlMerge._overlay_child"]}
{"id": "C32", "title": "Overlay is idempotent", "statement": "Overlaying the same document a second time changes nothing (sibling keys distinct, no font resources in the overlaid document).", "quantifier": "all pairs of trees", "why_tests_cant": "unbounded trees", "anchors": ["lib/sldr/ldml_merge.py:LdmlMerge.overlay"]}
{"id": "C33", "title": "difference removes only what the other document has", "statement": "After self.difference(other) every element remaining was in self with the same tag, attributes and text. A place is removed exactly if it is at or below an element that other makes superfluous: other has an element of the same key path with the same content, or all its children are superfluous and it has no text different from other's. If content hashes do not collide, every removed element has a counterpart in other at the same key path with the same text (or it had no text and the counterpart has children), and elements whose key path is not in other are untouched. A document less itself is empty. An element's alternates are lost with it where other's has none.", "quantifier": "all pairs of trees", "why_tests_cant": "unbounded trees", "anchors": ["lib/sldr/ldml_merge.py:LdmlMerge.difference"]}
{"id": "C34", "title": "Flattening undoes unflattening", "statement": "For documents with distinct sibling keys, no blocked tags, no aliases or fonts, no alternates in a, no inherited markers in a, no text beside children in b, and content hashes that do not collide, overlay(difference(a, b), b) has the same key paths and texts as overlay(a, b). With blocked tags it is false: a collation equal to the parent's is removed by unflattening and not restored by flattening. Attributes are not always restored either.", "quantifier": "all pairs of trees", "why_tests_cant": "relates two recursive transformations on unbounded trees", "anchors": ["lib/sldr/ldml_merge.py:flattenlocale", "lib/sldr/ldml_merge.py:LdmlMerge.difference", "lib/sldr/ldml_merge.py:LdmlMerge.overlay"]}
{"id": "C35", "title": "The fallback chain is finite and ends at root", "statement": "flattenlocale terminates for every locale name and looks, for each fallback in order (the declared parents of the name, or else the name without its last part; then root), at exactly its nonempty truncations at underscores, each once, longest first. Flattening overlays every document found there that names no script or the same script (flagging collations before root) and loses nothing of the document; unflattening takes the difference with the first such document; copying changes nothing. The table of parents only gains root at that name, and a second call does the same as the first. Parents of parents are not looked up, a change set is compared with the fallbacks only and not with their truncations, and a fallback element makes it fail with AttributeError. When stubs are skipped, a document with nothing but an identity gives nothing, and so does one whose result has nothing but an identity; all else is as when stubs are not skipped.", "quantifier": "all locale names, parent tables, document collections and documents", "why_tests_cant": "unbounded names; loop termination", "anchors": ["lib/sldr/ldml_merge.py:flattenlocale"]}
{"id": "C36", "title": "Three way merge respects unchanged sides", "statement": "Without drafts, merge of three documents whose siblings have different keys never fails, and gives at every key, for the text and for every attribute what a three way merge should: a side that has not changed gives way, both sides changed is merged recursively (texts and attributes: self wins), removal wins over no change (and over a change if the winner is 'other'). In particular if other equals base the result is self's content, if self equals base it is other's content (elements new in other come without their alternates), and if all three are equal the document is exactly as before and no change is reported.", "quantifier": "all trees", "why_tests_cant": "unbounded trees and change patterns", "anchors": ["lib/sldr/ldml_merge.py:LdmlMerge.merge", "lib/sldr/ldml_merge.py:LdmlMerge._align"]}
{"id": "C37", "title": "Merging alternates can drop the other side's change", "statement": "With drafts: when self equals base at an element, and other both changes it and adds an alternate, merge keeps self's element and gains the alternate only: the change is lost although there is no conflict; without alternates on other's side the change is taken over. Without a default draft merge always fails with AttributeError, and without an other document it fails whenever the root text of self and base is the same. Of an element with text that both add, that of self stays only if its draft is better, and otherwise it gets text, children and draft of the other; a change that self alone made to an element with text is undone, without an alternate being left, if the draft of base is better.", "quantifier": "exhibited on all trees of that shape", "why_tests_cant": "a universally quantified description of when data is lost", "anchors": ["lib/sldr/ldml_merge.py:LdmlMerge.merge", "lib/sldr/ldml_merge.py:LdmlMerge._merge_with_alts", "lib/sldr/ldml_merge.py:LdmlMerge._merge_alts"]}
{"id": "C38", "title": "Parent search terminates and yields truncations", "statement": "find_parents' trimming loop stops after at most (number of hyphens + 2) rounds for every lookup table and every tag that does not begin with a hyphen (one that does hangs); every tag in the returned path after the first is the starting tag cut at a hyphen, strictly shorter than the one before it; the answer is the last of them; each has a tag set that differs from the starting one, agrees with it in script and region as asked, and has an SLDR file if one is asked for; going to the root, none of them is left out.", "quantifier": "all tags and all tag databases", "why_tests_cant": "loop termination for an arbitrary database", "anchors": ["lib/sldr/utils.py:find_parents"]}
{"id": "C39", "title": "Exemplar collection segments the whole text", "statement": "process(text) ends for every text. What it counts, together with the characters it skips, is a segmentation of the normalised text into consecutive non-overlapping pieces: given exemplars, punctuation, clusters, skipped characters. Each exemplar's count grows by the number of its pieces, the exemplar is the piece (a capital turned into a small letter when no nukta follows), and each character is counted once under its script.", "quantifier": "all texts, all Unicode property tables, all preset exemplars", "why_tests_cant": "unbounded text and arbitrary property tables", "anchors": ["lib/sldr/ldml_exemplars.py:Exemplars.process"]}
{"id": "C40", "title": "Exemplar analysis terminates", "statement": "The cluster splitting loop of analyze ends for every set of clusters. Afterwards no cluster with a base has a trailer that must stand apart; every cluster left is a part of one there was; and of every cluster the base is left, with some of its trailers, the others standing apart.", "quantifier": "all cluster tables and property tables", "why_tests_cant": "loop termination", "anchors": ["lib/sldr/ldml_exemplars.py:Exemplars.analyze", "lib/sldr/ldml_exemplars.py:Exemplars.split_exemplar"]}
{"id": "C41", "title": "Exemplar classes", "statement": "analyze of clusters that process made ends without an exception. Punctuation and digits are exactly the bases of the clusters that are such. Every string in main or auxiliary is a part of another counted cluster, every such cluster is covered by main and auxiliary, which of the two is settled by frequency, and no string is in both unless two clusters left share their text or it was set aside. The index holds the capitals of main, the graphemes are the texts by falling frequency.", "quantifier": "all cluster tables and property tables", "why_tests_cant": "unbounded tables", "anchors": ["lib/sldr/ldml_exemplars.py:Exemplars.find_punctuation", "lib/sldr/ldml_exemplars.py:Exemplars.find_numbers", "lib/sldr/ldml_exemplars.py:Exemplars.parcel_frequency"]}
{"id": "C42", "title": "A keyboard outputs the concatenation of the mapped keys", "statement": "For every keyboard file that loads and every sequence of keystrokes, the text shown after n keystrokes is the concatenation of the texts mapped to the first n keys; an unmapped key contributes nothing, and the text of a key is that of its last entry in the last key map with the same modifiers. The BKSP key (on a keyboard with a backspaces table) instead takes one character off what is shown, and the next key brings it back. With a simple transforms table and fallback=omit nothing is ever shown. Typing a text is typing its bracketed keystrokes one after the other: the last word in the brackets is the key, the words before it, in lower case, the modifiers, and text outside brackets is skipped.", "quantifier": "all keyboard files that load, all keystroke histories", "why_tests_cant": "histories of unbounded length", "anchors": ["lib/sldr/ldml_keyboard.py:Keyboard.process", "lib/sldr/ldml_keyboard.py:Keyboard.map_key", "lib/sldr/ldml_keyboard.py:Context"]}
{"id": "C43", "title": "Transform matching finds the longest rule", "statement": "Rules.match returns the rule reached by the longest prefix of the input that leads to a rule node that applies (with contexts: the first that fits; one with text before never fits), and consumes exactly that many characters; without such a prefix it returns (None, 0). When partial matches are hidden it instead returns (None, whole length) exactly when the whole input is the beginning of something longer.", "quantifier": "all tries (with defaults and contexts) and all inputs", "why_tests_cant": "unbounded tries and inputs", "anchors": ["lib/sldr/ldml_keyboard.py:Rules.match"]}
{"id": "C44", "title": "Keyboard layers always make progress", "statement": "Processing a layer of replacements terminates for every table and every setting. It keeps what was settled and appends the left to right longest match rewriting of the rest of the input (unmatched characters copied, a waiting end held back when partial matches are hidden), leaves the other layers alone, and gives up exactly when a rule with an error is met. With fallback=omit nothing is added from the first character on that has no rule, with transformFailure=omit from the first such character that some rule starts with; refuted: that the character alone is omitted. After an error the text so far is shown between stars and later keys do not see the key; after any other key its text is shown.", "quantifier": "all tries and inputs", "why_tests_cant": "loop termination", "anchors": ["lib/sldr/ldml_keyboard.py:Keyboard._process_simple"]}
{"id": "C45", "title": "Spreadsheet run-length cells keep the row width", "statement": "Writing a value into a column of a run-length encoded row keeps the total number of columns, puts the value at exactly that column and leaves the value at all other columns unchanged, when the cell at that column is empty or not repeated; so do any number of writes into a row in which only empty cells are repeated. A repeated cell with content loses its other columns, and writing to the column after the last one overwrites the last.", "quantifier": "all rows and columns", "why_tests_cant": "unbounded run-length encodings", "anchors": ["lib/sldr/sheet.py:Sheet._writeodsitem"]}
{"id": "C46", "title": "Template repetition runs exactly once per list value", "statement": "IterDict yields exactly one assignment for any mapping of names to values that have no attribute called len (no Python value has one), each name bound to the str() of its last value; for values with that attribute it yields one more than the sum of the numbers of their further items, never the cross product.", "quantifier": "all mappings", "why_tests_cant": "unbounded mappings", "anchors": ["lib/sldr/xmltemplate.py:IterDict"]}
{"id": "C47", "title": "Importing collations terminates on acyclic imports", "statement": "flatten_collation replaces every [import] statement by the flattened imported text and leaves other text unchanged; when the import function always answers, it terminates exactly when the imports are well founded, and goes ever deeper on a cycle.", "quantifier": "all tailoring texts and import functions", "why_tests_cant": "termination under an arbitrary import function", "anchors": ["lib/sldr/ldml.py:Ldml.flatten_collation"]}
{"id": "C48", "title": "Language tags: the forms of a tag", "statement": "The forms of a tag are exactly the tag with its script written or, if hidden or missing, left out, and likewise its region (both left out only if hideboth); repr(t) and str(t) are among them, and parsing any form of an unambiguous tag gives a tag that t matches. A tag matches another one exactly if languages, variants in their order and extensions are the same, and script and region are the same or hidden in the first and missing in the second.", "quantifier": "all tags with sorted subtag lists", "why_tests_cant": "unbounded variants and extensions, all flag combinations", "anchors": ["lib/sldr/langtags_full.py:LangTag.allforms", "lib/sldr/langtags_full.py:LangTag.matches"]}
{"id": "C49", "title": "Language tags: analyse terminates and loses nothing", "statement": "analyse(alltags) ends for every tag and registry; it returns the registered tag of the tag's short form, or the tag with its language and every set component (except region ZZ) unchanged and the missing ones filled from the registered parent.", "quantifier": "all tags and registries", "why_tests_cant": "recursion over arbitrary registries", "anchors": ["lib/sldr/langtags_full.py:LangTag.analyse"]}
{"id": "C50", "title": "Reading keeps everything that is not inherited", "statement": "Reading a document keeps exactly the elements that are neither the inheritance marker (three up arrows) nor have only such children, with tags, attributes, text and order unchanged; with uparrows=True it keeps all elements, and every comment in order. Text that follows a comment inside an element is lost.", "quantifier": "all documents with mixed content and comments", "why_tests_cant": "unbounded nesting; removal interacts with the traversal", "anchors": ["lib/sldr/ldml.py:Ldml.__init__", "lib/sldr/py3xmlparser.py:TreeBuilder"]}
{"id": "C51", "title": "Writing a document does not depend on what was written before", "statement": "serialize_xml (with declarations at the top) writes the same text whatever documents the process wrote earlier, although the dictionary of declared namespaces is a default argument shared by all calls. With topns=False this fails: the second document lacks its declarations.", "quantifier": "all documents with declared namespaces, all histories of earlier calls", "why_tests_cant": "all histories of calls", "anchors": ["lib/sldr/ldml.py:ETWriter.serialize_xml", "lib/sldr/ldml.py:ETWriter._nsprotectattribs"]}
{"id": "C52", "title": "Adding an element never displaces a better one", "statement": "With drafts in use, addnode appends the element if no sibling has its key; otherwise the first sibling with the key is joined: the better of the two is the primary, the other an alternate under the given name, every member of the family survives except an alternate of that name that is not better than the new element, and if there is a better alternate of that name it is returned unchanged instead. All other siblings are unchanged.", "quantifier": "all parents, attributes, drafts and alternates", "why_tests_cant": "unbounded families of alternates and histories of additions", "anchors": ["lib/sldr/ldml.py:Ldml.addnode", "lib/sldr/ldml.py:Ldml._add_alt_leaf", "lib/sldr/ldml.py:Ldml._promote"]}
{"id": "C53", "title": "Fonts of the overlaid document take over their types", "statement": "When font resources are overlaid, every font type the other document's fonts claim is taken out of the types of self's fonts; a font of self left with no type goes; the others keep their remaining types in order; a default font in the other document removes all of self's fonts.", "quantifier": "all lists of fonts on both sides", "why_tests_cant": "unbounded lists of fonts and types", "anchors": ["lib/sldr/ldml_merge.py:LdmlMerge._overlay_external_resources"]}
{"id": "C54", "title": "Transforms are never loaded", "statement": "Adding a transform whose pattern stands for some text always fails, so a keyboard that loads has only empty transform tables; a key map with an optional modifier is refused, and BKSP raises on a keyboard without a backspaces table.", "quantifier": "all keyboard files, all patterns, all tables", "why_tests_cant": "a universally quantified failure over an unbounded set of files", "anchors": ["lib/sldr/ldml_keyboard.py:Rules.append", "lib/sldr/ldml_keyboard.py:Keyboard.parse", "lib/sldr/ldml_keyboard.py:Keyboard.parse_modifiers", "lib/sldr/ldml_keyboard.py:Keyboard._process_backspace"]}
{"id": "C55", "title": "Typing equals pasting when partial matches are hidden", "statement": "With transformPartial=hide, processing texts key by key gives the same simple layer output as processing their concatenation at once, namely the rewriting of the whole text; with partial matches shown this is false.", "quantifier": "all tries without defaults and contexts, all sequences of key texts", "why_tests_cant": "histories of unbounded length over arbitrary tables", "anchors": ["lib/sldr/ldml_keyboard.py:Keyboard._process_simple", "lib/sldr/ldml_keyboard.py:Context.results"]}
{"id": "C56", "title": "Reordering only reorders", "statement": "The reorder layer terminates for every table, leaves the other layers alone, keeps what was settled and appends a permutation of the rest of its input. When the characters of the text have orders only, what stands before the first base (order 0) stays, and then every run of bases and the marks after them is sorted by order, and characters of the same order stay as they stand. A mark with an order below 0 goes before all the bases of its run, not only its own. The i-th character of the longest rule gets the i-th order, tertiary, tertiary base and prebase of the rule, or the last one given; every word but \"false\" counts as true.", "quantifier": "all tables, contexts and inputs", "why_tests_cant": "unbounded inputs and tables", "anchors": ["lib/sldr/ldml_keyboard.py:Keyboard._process_reorder", "lib/sldr/ldml_keyboard.py:Keyboard._sort"]}
{"id": "C57", "title": "Rows of a spreadsheet are read back as written", "statement": "A row in which every run is shorter than ten columns is read column by column (without the first); a value written to a column is then read back from that column and all others as before; a run of ten or more columns counts as one, so that a value behind such a run is read from the wrong column.", "quantifier": "all rows, columns and values", "why_tests_cant": "unbounded run-length encodings", "anchors": ["lib/sldr/sheet.py:Sheet._odssetup", "lib/sldr/sheet.py:Sheet._writeodsitem"]}
{"id": "C58", "title": "A tailored element sorts next to its base, at the level its rule says", "statement": "After the sort keys of a collation are calculated, each element without expansion has the key of its base with one change: the last weight of the level of its relation goes up by the increment, or goes down by the before-shift when the reset says [before] at that level; '=' changes nothing. So the element sorts after its base (before it, with [before]) with a difference of exactly that level. The key of a string is made of the keys of its longest known pieces, tailored ones first; a string without any tailored piece keeps its DUCET key. An element with an expansion (given, or the part of a base after its longest known beginning) whose base is untailored gets the changed key of the base followed, level by level, by the key of the expansion.", "quantifier": "every collation without expansions, every DUCET table, every order of elements, every weight type with a total order, every string", "why_tests_cant": "The relation must hold for every chain of rules, of any length and nesting, and for every table; examples cover single chains.", "anchors": ["lib/sldr/collation.py:Collation._setSortKeys", "lib/sldr/collation.py:CollElement.sortkey", "lib/sldr/collation.py:CollElement.expand", "lib/sldr/collation.py:Collation.sortKey"]}
{"id": "C59", "title": "A tailoring never moves an element past the DUCET neighbours of its starting point", "statement": "However many elements a collation has, the key of each differs from the DUCET key its chain of bases starts at only in the last weight of each level, and by less than one unit (by less than 1/(befores+1) upwards). So any DUCET string with a smaller primary key than the starting point sorts before every element of the chain, and any with a bigger one (that is no continuation of it) sorts after.", "quantifier": "every collation without expansions, any number of elements and of [before] resets, every DUCET table of whole-number weights, every DUCET string", "why_tests_cant": "The increment depends on the number of elements; whether increments can add up to a whole unit is a statement about all sizes.", "anchors": ["lib/sldr/collation.py:Collation._setSortKeys", "lib/sldr/collation.py:CollElement.sortkey"]}
{"id": "C60", "title": "Calculating sort keys always ends", "statement": "Calculating the tailored sort keys of a collation ends, also when bases refer to each other in a circle.", "quantifier": "every collation, also with circular bases and expansions, every DUCET table", "why_tests_cant": "Termination over arbitrary graphs of bases cannot be observed by running some of them.", "anchors": ["lib/sldr/collation.py:CollElement.sortkey", "lib/sldr/collation.py:Collation._setSortKeys"]}
{"id": "C61", "title": "A collation written as ICU rules reads back as the same tailoring", "statement": "Writing a collation with asICU never fails, and parsing the text gives the same elements with the same levels, [before] marks and expansions, in the order written; the base is the same or the element written just before, when that agrees with the base up to the level of the relation. When elements can only continue after their own bases and are written in order of definition, every element gets the same sort key again. The line length asked for makes no difference.", "quantifier": "every tailoring whose elements, bases and expansions are free of newline, ampersand, slash, operators, backslash and white space at the ends, with levels 1 to 4 and [before] up to 9; every DUCET table and line length", "why_tests_cant": "Round trips over arbitrary chains, escapes and coincidences of keys cannot be enumerated.", "anchors": ["lib/sldr/collation.py:Collation.asICU", "lib/sldr/collation.py:Collation.cmpKeys", "lib/sldr/collation.py:escape", "lib/sldr/collation.py:Collation.parse"]}
{"id": "C62", "title": "A simple sort list becomes a tailoring that sorts its items in list order", "statement": "Converting a list of lines (items cut at spaces and slashes) into a collation relates every item to the item before it: at the primary level at the start of a line, at the secondary level after a space, at the tertiary level after a slash. After conversion, including the step that re-bases the start of the list before another element, the sort keys of the items are strictly increasing in the order in which they were listed. Any list is read without failing and existing entries are kept; a lone cased letter is followed by its other case.", "quantifier": "every list of lines, both values of strict, every weight table with whole weights, every answer the sequence matcher may give", "why_tests_cant": "The order must hold for every pair of items in lists of any length and any table, and the increments depend on the number of elements; tests see a few alphabets.", "anchors": ["lib/sldr/collation.py:Collation.convertSimple", "lib/sldr/collation.py:Collation._insertBefore"]}
{"id": "C63", "title": "Saving a document with drafts leaves it as it was", "statement": "serialize_xml of a document with useDrafts writes every element and, after each child, all its alternates in the order of their names with their alt attribute; the draft is left out only where it is the default or the element has children. Afterwards the document in memory has the same elements and alternates, and saving it again at any time writes the same text. This holds as long as no alternate is promoted between two saves: one that was written as an alternate and promoted since is dropped by the next save. A saved document that is loaded again is the same in elements, attributes, texts, order, alternates and hashes, and is saved as the same text, if saving dropped no draft, no element with children has an alt, no element is serial and all siblings can be told apart; refuted where a dropped draft changes the order or an alt is on an element with children.", "quantifier": "all documents with alternates (any depth, any number of alternates), all histories of saves", "why_tests_cant": "unbounded trees with alternates at every level and unbounded histories of saves", "anchors": ["lib/sldr/ldml.py:Ldml.serialize_xml", "lib/sldr/ldml.py:Ldml._promote", "lib/sldr/ldml.py:ETWriter.serialize_xml"]}
{"id": "C64", "title": "Exemplar sets survive being taken out and put in", "statement": "The text that an Exemplars object gives for a set of exemplars (main, auxiliary, index, punctuation, digits), given to any Exemplars object, is read as exactly the exemplars of the set whose first composed character is of the script that occurs most often in the text processed so far or of no specific script. If all of them are, nothing is lost. The text of a sorted set does not depend on the order in which the set lists its members. The recorded longest length never shrinks and is the length of the longest exemplar. An object that has processed no text gives no exemplar of any script.", "quantifier": "every set of decomposed exemplars without space and backslash, every processed text, every normalisation and property data with NFD(NFC(x)) = NFD(x)", "why_tests_cant": "The set, the text counted and the escapes needed vary without bound; a test fixes a few letters and one script.", "anchors": ["lib/sldr/ldml_exemplars.py: Exemplars.ldml_read, ldml_write, _get_script, UCD.need_hex_escape, UCD.is_specific_script"]}
{"id": "C65", "title": "Resolving aliases puts the content of the target in the place of the alias", "statement": "If the aliases of a document do not go round in circles, resolve_aliases ends without error. Afterwards each element has its own children, resolved, and for each alias with a path the resolved children of the first element the path finds (nothing if it finds none); the order is kept if the alias is the last child. No alias with a path is left. No element changes its tag, attributes or text, and an element without such an alias keeps its children. With circles resolving can run forever or raise ValueError; what is below an inherited child is shared with the original.", "quantifier": "every document, every nesting and chain of aliases, every path of parent and child steps that does not look into an element with an alias", "why_tests_cant": "Chains of aliases can be of any length and meet in any way; a test sees one shape and one order of resolution.", "anchors": ["lib/sldr/ldml.py: Ldml.resolve_aliases, Ldml._copynode, _prepare_parent"]}
{"id": "C66", "title": "A spreadsheet and an LDML document made from it say the same", "statement": "Each row of the sheet with a path in its first cell, and each row of a table, names places in the document by putting its own key and the column headings into the path of the row or table. Making LDML writes exactly one text for every such cell that is not blank and nothing for the others; a path that ends with an attribute without a value gets the cell as the value. Filling the sheet from the document puts the text found at a path into exactly the cell of that path, so going to LDML and back leaves every row of the sheet reading as it was. A table goes on up to the first row with a blank first cell (table2dx: up to the first row with a first cell). A table right after another, an element without text, a short row and a second attribute in the last step go wrong.", "quantifier": "every sheet (any number of rows, tables and columns), every content of the cells, every document that holds what was written", "why_tests_cant": "The four layouts of tables, their borders and the texts of the cells combine freely; a test has one sheet.", "anchors": ["lib/sldr/sheet.py: Sheet.process, _action_ldml, _action1d_ldml, _action2d_ldml, _action2dr_ldml, _action2dx_ldml, _action_ods, _action1d_ods, _action2d_ods, _action2dr_ods, _action2dx_ods"]}
{"id": "C67", "title": "A collation written as a simple list says what the list it was made from said", "statement": "Converting a simple list of items to a collation and writing that collation as a simple list gives the same lines, with the items in the same places and the added case forms shown, whenever the first line has two items or more and no item had to be moved; reading the written list again gives the same items with the same levels. Writing ends whenever following the bases ends. For any collation every element at the primary, secondary or tertiary level, and every base that is not tailored itself, is in the list, and nothing else is. A first line of a single item comes out after the second line; elements that are equal to their base, expansions and positions before the base are lost; a mark with case forms is written twice; two elements that are each other's base make it run for ever.", "quantifier": "every list of lines and items with a usable weight table; every set of collation elements and bases, in any order", "why_tests_cant": "The output depends on chains of bases of any length and on the order of all elements; tests see a few short lists.", "anchors": ["lib/sldr/collation.py: Collation.asSimple, getparents, Collation.convertSimple"]}
{"id": "C68", "title": "The path of an element finds it, and removing by path removes exactly what is found", "statement": "The path the library gives for an element, when used to search, finds that element, together with exactly those elements that have the same tags and at least the same distinguishing attributes all the way down; it finds the element alone when no sibling on the way covers it. Removing by path takes away exactly the elements the path finds, leaves everything else of the document as it was and in its order, and afterwards the path finds nothing. Removing alternates raises ValueError. The path of an element also finds a sibling that has one more distinguishing attribute, and the path of an element in the SIL namespace finds nothing.", "quantifier": "every document, every element in it whose names and values a path can hold, every path that can be read and every starting element", "why_tests_cant": "Documents nest to any depth and any number of siblings can match a step; removing shifts the positions of the later matches.", "anchors": ["lib/sldr/ldml.py: Ldml.as_xpath, Ldml._distattributes, Ldml.remove_path, Ldml.find, Ldml.findall, Ldml._process_path, Ldml._unify_path"]}
{"id": "C69", "title": "The file of equivalent tags: reading, writing, and what survives", "statement": "After the file of equivalent tags is read, looking up a form gives the tag of the last line that has the form, and nothing that stands on no line is registered; the tag of a line has the language, script, region, variants and extensions that the last form of its line says, whatever the other forms are. A line without forms ends the reading with IndexError. Tags that are written as lines of forms, in any order and with any file markers, read back: each form leads to a tag with the same subtags, all forms of one tag to one tag, and nothing else is registered. What is hidden does not survive: no tag that was read hides its region, its script is hidden whenever it has two forms, so that its short form changes, can be no form of it, and can be the form of another tag; and a registry that is read and written again loses forms.", "quantifier": "every list of lines, every white space test and case mapping, every list of tags that are tidy, well formed and unambiguous, every registry of such tags, every order in which Python runs through a set, every choice of marked forms", "why_tests_cant": "Files have any number of lines with any number of forms, later lines take forms from earlier ones, and the tag of a line is changed in place by every form.", "anchors": ["lib/sldr/langtags_full.py: LangTags.readAlltags, LangTags.generate_alltags, LangTag.allforms, LangTag.merge_equivalent, main program"]}
{"id": "C70", "title": "Reading the IANA registry registers every language and files every variant", "statement": "Reading the records of the IANA subtag registry adds, in the order of the file, a tag for each record that names a language: its subtag, behind its prefix for extended languages, its suppressed script as a hidden script, and its descriptions. Afterwards each such language can be looked up, alone and with its suppressed script, and nothing registered before is lost. Each variant is listed under every one of its prefixes, in the order of the file, and a variant without prefix is listed as global; nothing else is listed. A file that ends with a variant raises AttributeError, and one whose first variant has no prefix raises NameError, so the outcome depends on the order of the records.", "quantifier": "every list of records with any lines, every white space test, every registry before, every order in which Python runs through a set", "why_tests_cant": "Files have any number of records with any number of lines, and what the lines mean depends on the state that earlier lines left.", "anchors": ["lib/sldr/langtags_full.py: LangTags.readIana, LangTags.add"]}
{"id": "C71", "title": "Expanding a template leaves no template elements and keeps the rest", "statement": "When expanding a template succeeds, no element of the template language is left below the root; elements that are not of the template language stay in order with name, tail text and plain attributes; a document without template elements and attributes is returned unchanged. A context gives the content expanded at its path and forgets the variables set in it; a loop gives one expansion of its content for each node of its path, all starting with the same variables. A variable gets its value, or its default if that is empty, and with fallback keeps an earlier value; no other variables change. Computed attributes replace plain ones. Refuted: attributes computed on elements without children, text behind template elements, loop variables that take several values or end with the loop, and the promised XPathEvalError on failure.", "quantifier": "all templates (trees of any size), all variables, all contexts, all results of evaluating paths", "why_tests_cant": "templates nest without bound and the state of the variables depends on everything expanded before", "anchors": ["lib/sldr/xmltemplate.py: Templater.process", "lib/sldr/xmltemplate.py: Templater.processattrib", "lib/sldr/xmltemplate.py: Templater.xpath", "lib/sldr/xmltemplate.py: IterDict"]}
{"id": "C72", "title": "Font rules made from a decision tree, and looking a font up", "statement": "Every rule written is right about some leaf of the decision tree (a language it accepts has all subtags asked for on the way to a leaf with the rule's font), every leaf that asks for some subtag is covered by a rule with its font, skipped and merged leaves included, and looking a language up gives the first rule that accepts it, which no accepting rule exceeds in conditions; nothing is found only for languages at leaves that ask for nothing. The font identifier does not depend on the order of features nor on features that are off; a document's font is the first with 'default' in its types, or else the last without types. Refuted: that the rules give each language the font the tree gives it, and that each language gets a font.", "quantifier": "all decision trees that do not ask two values of one subtag on a path, all languages, all lists of fonts", "why_tests_cant": "rules are merged and skipped depending on all earlier leaves; trees have any size", "anchors": ["scripts/fontrules: Classifier.treerules, Classifier.simplerules, fontid", "scripts/fontmatch: match1"]}
{"id": "C73", "title": "The order of time zones", "statement": "The list of time zones made from zone.tab has each zone once, under the name CLDR uses, with the data of the last line naming it, ordered by country, latitude, longitude and name; every zone comes from a line or is one of the Etc zones. Positions in both ISO 6709 forms of zone.tab are taken apart as meant, and the angle of a northern or eastern position is right. Reading the list back gives each zone a sort key, all of one length, whose order as text is the order of the lines. Refuted: that southern and western positions are right (minutes and seconds are added instead of subtracted), and that longitudes of the Etc zones lie on the map. A zone without an understood position stops the program with an exception, an empty list one while reading.", "quantifier": "all zone.tab files and all lists of zones, of any length", "why_tests_cant": "the backtracking of the position expression, overwriting by later lines and the padding depend on the whole file", "anchors": ["scripts/zonetab: latlongdeg, fixzones, main loop", "lib/sldr/ldml.py: Ldml.ReadTZData"]}
{"id": "C74", "title": "Orders and distinguishing attributes read from the DTD and the metadata", "statement": "After the DTD and the metadata are read, the number of a child element is its last place in the content model of its parent, the number of an attribute its last place among the declarations for its element, the sort keys of enumerated values (and of time zones) are of one length and ordered as declared, and the numbers for unknown elements and attributes are above all others. An attribute distinguishes an element exactly if the DTD declares it there, an item of the metadata names it for the element, or it is named for all elements and not excluded (three SIL elements have fixed sets); reading the files again changes nothing. Reading fails exactly with an attribute list before its element, no element, or no time zone. Refuted: that an attribute marked METADATA or VALUE in the DTD, or excluded by the metadata, does not distinguish; comments have no effect at all, so elements marked BLOCK are not merged as blocks.", "quantifier": "all sequences of DTD declarations, all metadata items, all zone lists", "why_tests_cant": "orders and sets depend on the whole sequence of declarations, including repeated and nested ones", "anchors": ["lib/sldr/ldml.py: Ldml.ReadMetadata, Ldml.ReadDTD, Ldml._distattributes"]}
{"id": "C75", "title": "Repairing old documents moves and drops only what it should", "statement": "fixsldr takes the first top-level orientation, status and regionInfo away and leaves all other top-level elements, except layout, identity and characters, as they were and in order. An orientation that has anything besides the default orders ends up, without the defaults, in the first layout (made if there is none). A held document gets usage=unused in its SIL identity, a region of the table the default region, and no other attribute of the SIL identity changes. In held and draft documents, exemplars without a draft status become unconfirmed; comments of exemplars go. The code of language and script becomes their type, the name goes, no other attribute changes, and the language gets one comment with its type and English name. The rest of the identity is kept. Repairing a document again changes nothing, if there was at most one orientation, status and regionInfo.", "quantifier": "all documents (any elements, attributes, texts, comments), all tables of names", "why_tests_cant": "the documents are arbitrary trees, and idempotence and the keeping of all other parts are about every one of them", "anchors": ["scripts/fixsldr: doit, add_silidentity, regionmap"]}
{"id": "C76", "title": "Minimising a tailoring drops only what DUCET already says of it", "statement": "minimise only deletes entries: those left are unchanged and in the same order. Contractions and entries placed before something stay. There is a set of kept strings so that among the other single letters and the characters their chains start from, the order of the tailoring is that of DUCET, and each of the other letters has the level at which DUCET tells it from the one directly before it; what is left are the entries of the set and those defined relative to them through differences of level two and three. So dropped entries are ordered as in DUCET. A tailoring that says what DUCET says is minimised to nothing. If no two keys are equal the result does not depend on hashing. Minimising ends if no chain is a cycle and no entry equals another by '=', and raises otherwise. (Not true: the order of the tailoring is kept; a letter moved past characters the tailoring does not name stays; the result does not depend on hashing when keys are equal.)", "quantifier": "all tailorings, DUCET tables, orders in which a set is enumerated, and matchings of two sequences", "why_tests_cant": "a test sees one alphabet and one hash seed; the structure of what is dropped depends on the longest matching of two orders of any length", "anchors": ["lib/sldr/collation.py: Collation.minimise, CollElement.head, CollElement.all_children"]}
{"id": "C77", "title": "Importing CLDR makes the output follow the source, in any order", "statement": "cldrimport finds the locales that have an .xml file in main, collation, casing or segments, and gives the files of a locale to the merge in this order. When no locale fails, the file <first letter>/<locale>.xml of each locale with sources is what the merged document is written as; with --remove the files of locales that are not in the source are gone and without it they stay; nothing else changes. The order in which sets are enumerated, the number of processes, the order in which they write and --single make no difference, and importing again changes nothing. Whatever fails, with the pool each file is the new one or as it was; with --single the exception comes out and nothing is removed. A locale with one file is left without references, other attributes stay. (Not true: no references are left when there are several files; a locale that does not fail is written though another one fails; after --remove all .xml files are of the source; each locale found is written; with --hg anything is written.)", "quantifier": "all source and output trees, merges, writers, set orders, numbers of processes, schedules and failing locales", "why_tests_cant": "the pool and the order of a set are different in each run, and what one failing locale takes with it depends on the number of cores", "anchors": ["scripts/cldrimport: doit, dohg, main program"]}
{"id": "C78", "title": "Adding fonts changes the fonts of a locale and nothing else, and asks for a URL until it is good", "statement": "The table of fonts gives for a script, or a script and a region, the fonts of the last row with fonts that names it; the style sheet gives for a locale the fonts of its last font-family that has any and the features of its last rule that has any. The first table suggests the fonts of the script with the region, else of the script, else none, and Charis SIL for an unknown full tag. sldraddfonts writes to the file of each known locale the fonts of both tables (those of both first, the others sorted), each once: the old elements keep their order and new ones follow, fonts that are not asked for stay as they are; the features are those of the locale without those the font implies, sorted, whatever files were written before; the first font is the default unless its type is 'ui', the types of the others stay; the URL is the cached one, and if there is none all that can be made from the name were refused. Whatever the network answers, a font with a given URL is never asked for and one whose URL was good is not asked for again; each URL in use is given or was good. If something raises, the files before are written, the one at hand has the first of its fonts, the others stay. Writing again with all URLs known changes nothing and asks for nothing. (Not true: at most one default; some default; independence of hashing; old features go when there are none; a URL is asked for once; the run goes on when the network is down.)", "quantifier": "all tables, style sheets, files, langtag data, orders of a set and answers of the network", "why_tests_cant": "the network answers differently each time and the state (cache, feature sets that are changed in place) grows over the run", "anchors": ["scripts/sldraddfonts: read_font_data, read_feature_data, find_fonts_from_csv, find_fonts_from_css, find_url_from_fontname, build_url_from_fontname, write_font_data, write_all_font_data"]}
{"id": "C79", "title": "Completing the registry of tags loses no key and registers every likely subtag", "statement": "Reading the likely subtags, the extras and the supplemental data never removes a form from the registry of tags, whatever is read. If the registry has ordinary tags (language, script, region) and every form in it is a form of the tag that it leads to, then this remains so, and: of every likely-subtag element that is not for the undetermined language both the short and the full tag are registered at the end, the full one leading to exactly the subtags it spells; the short tag leads to exactly the full tag if it was not registered, or if all registered forms of the full tag led to one tag; an extras row not confirmed by CLDR registers the full tag, and the short one if it has a script or region; a language that is listed in exactly one territory has afterwards a form that spells out that territory and leads to a tag of the language with it (if its forms without region led to one tag), languages listed in several are not touched, and reading never raises.", "quantifier": "all registries, all files of likely subtags, extras and supplemental data, all iteration orders of sets, all case mappings", "why_tests_cant": "what an entry does depends on all that was read before it: tags are shared between forms and changed in place", "anchors": ["lib/sldr/langtags_full.py: LangTags.readLikelySubtags, LangTags.readExtras, LangTags.readSupplementalData, LangTags.add, LangTag.analyse"]}
{"id": "C80", "title": "What is loaded does not depend on how the input arrives in chunks", "statement": "Loading a document while it is being parsed gives the same result however the input is divided into chunks, in whatever pieces the parser hands over text, and wherever namespaces are declared: either the same error, or the same elements with the same attributes, text, children, comments before and after and parents. For a whole document the result is that of first building the tree and then removing comments and inherited elements from it, although the loop that removes them works on a tree that is still being built and runs behind the parser by as much as a chunk holds. Input with an error in it, or with an entity that is not declared, is never loaded.", "quantifier": "all documents, all divisions into chunks, all pieces of text, both settings of uparrows, all errors at any place", "why_tests_cant": "how far the loop lags behind the parser depends on buffer sizes; any element can be changed by the loop while the parser still adds to its parent; tests use one chunk", "anchors": ["lib/sldr/py3xmlparser.py: XMLParser, TreeBuilder", "lib/sldr/ldml.py: Ldml.__init__"]}
{"id": "C81", "title": "Recording keyboards: each one gets its download address, once, and nothing else changes", "statement": "After the keyboards of a language have been recorded in its document, looking for the address of any of them finds it first where it should be, holding the download address of that keyboard. Every element that was there is still there with its tag and attributes, and with its text unless it is one of those addresses; every new element is marked as generated and is on the way to one of the addresses; what was found for a keyboard stays the first to be found; for other keyboards nothing changes. Recording the same keyboards again changes nothing. The script deals with the languages in alphabetical order, each with exactly the keyboards that list it in the order of the data; each file receives the keyboards of the languages that go to it (four three-letter codes are tried again as two-letter ones; a file is looked for at the root and then below its first letter), other files do not change, and if something goes wrong the languages before have been dealt with and those after have not. A dry run changes no file. Asking for a report makes the script fail before it touches any file, whenever there is anything to report.", "quantifier": "all documents in which keys decide, all lists of keyboard ids that can stand in a path, all keyboard data, all sets of files, all errors at any file", "why_tests_cant": "the path is looked for, created in part or in whole, and the result depends on what the document holds; two languages may go to one file; tests look at one file", "anchors": ["scripts/sldraddkeymans", "lib/sldr/ldml.py: ensure_path"]}
{"id": "C82", "title": "Flattening many locales with worker processes: the order of the workers does not matter", "statement": "When no output of the run is also one of its inputs, every order in which the worker processes read, open and write gives the same files and the same answer: each locale that yields a result has exactly that result at its place, byte for byte, even when the locale was asked for twice and two workers write the file in turns; every other file is as it was. The answer lists, in the order of the locales, those without a result, a failure to flatten one not affecting the others. An exception that is not caught (no revision in the output of git, no output directory, an error while writing) ends its batch only, the other batches run on, and the run then ends with one of these exceptions. The run can always finish. With one process, locales are dealt with in order up to the first exception; without exceptions, and if flattening collations changes nothing, the result is that of many processes. Without a list, the locales are those with a file in an input directory or in a directory below it, once each, in order.", "quantifier": "all lists of locales, all contents of files, all numbers of processes, all interleavings of the steps of the workers down to single writes, all exceptions at any locale", "why_tests_cant": "the order of workers is not under the control of a test, and two of them may have the same file open", "anchors": ["scripts/ldmlflatten", "lib/sldr/ldml_merge.py: flattenlocale"]}
{"id": "C83", "title": "Breaking lines by a locale's own rules: order of the variables, order of the rules, and the pieces", "statement": "From the segmentation of a locale the script makes a text in which every variable is defined exactly once, with the text of its last definition, after all the variables it uses, and then every rule comes exactly once in the order of the rules' numbers, rules of one number as in the file; each line ends with a semicolon. This text is made exactly if every variable and rule has a text, every rule a number, every name used is defined and no variable uses itself through others; a circle of variables is an error, as is an undefined name. Each line of the input gives one line of output, the pieces between the positions reported, joined by bars: no character is lost or written twice, and if the line has no character past U+FFFF the pieces are exactly those that ICU found.", "quantifier": "all lists of variables (with repeated ids and any uses among them) and rules, all numbers, all lines and all positions reported", "why_tests_cant": "graphs of uses and numberings are unbounded; an order that happens to be right for one set of variables can be wrong for another", "anchors": ["scripts/icubreaktext"]}
{"id": "C84", "title": "Annotations in comments become attributes of the element that ended last before them", "statement": "A comment is an annotation exactly if it is, between white space, an at sign, a name in capital letters and maybe a colon and a value of one line. Turning annotations into attributes gives every element the attributes it had and one for each annotation that stands between its end tag and the next end tag inside the root, the later of two of one name winning; comments before and after the root have no effect, other comments are dropped, and tags, order, nesting and all other attributes are unchanged. It fails for a document exactly if an annotation stands inside the root before any element has ended. The text of an element that has only text is kept.", "quantifier": "all documents: any nesting of elements, comments and text, any attributes, any text of comments", "why_tests_cant": "which element a comment belongs to depends on the whole nesting before it", "anchors": ["scripts/proccldrcomments: ETWriter.parse, _proc_comment, serialize_xml"]}
{"id": "C85", "title": "Coverage of the levels of CLDR: what is counted, independence of the order, and the table", "statement": "A path counts for a locale exactly if its element has a text that is not empty, or none at all, and all the elements around it have an empty text. For each level the report counts, for every entry of the level whose conditions hold of the language, script and territory of the tag, the different paths that match it. What is found for a locale does not depend on the locales done before by the same process, so not on how they are shared out among processes. The table has one row for each locale with something found, better covered ones first, by name between equals, with percentages of what is found for English; there is an error and no row exactly if there are locales and English has nothing in some of the six levels.", "quantifier": "all documents, all sets of levels and variables, all tags, all lists of locales in any order, all regular expressions as functions", "why_tests_cant": "the level objects keep state between locales, and what counts depends on the layout of the whole document", "anchors": ["scripts/sldrcoverage: getxpaths, CoverageLevel, getstats, locale_stats, doit"]}
{"id": "C86", "title": "Visiting a tree of documents and finding the document of a locale", "statement": "Visiting a directory gives the paths of exactly the files below it, at any depth, whose names end in the extension, each once, in increasing order, whatever the order in which the system lists directories; a directory that is not there is the same as an empty one. For a locale the document loaded is the one directly in the first of the given directories that has it; only if none has it there, the one in the subdirectory for its first letter of the first directory that has it; hyphens in the locale stand for underscores; and nothing is loaded exactly if no directory has it in either place.", "quantifier": "all directory trees of any depth and any order of listing, all roots with or without a slash at the end, all extensions, all locales and lists of directories", "why_tests_cant": "depth, number and listing order of directories are unbounded, and the listing order depends on the file system", "anchors": ["lib/sldr/ldml.py: iterate_files, getldml"]}
{"id": "C87", "title": "Searching at any depth, and filling in missing names of languages", "statement": "A search for a path with two slashes after each other finds nothing in any document, wherever in the document one starts. So filling in the missing names of languages never changes a file, whatever the documents lack and whatever is known about the languages, and never reports more than files that are missing or unreadable; and the source of a document in the coverage report is never found.", "quantifier": "all documents whose elements have names, all paths with two slashes, all starting elements, all trees of files, all tables of language tags", "why_tests_cant": "that nothing is ever found is a statement about all documents and paths", "anchors": ["lib/sldr/ldml.py: Ldml.find, findall, _process_path, _unify_path", "scripts/sldrautonames", "scripts/sldrcoverage: locale_stats"]}
{"id": "C88", "title": "Testing a keyboard: which tests fail, and the exit status", "statement": "A test file is a list of events; an event with a known key, known modifiers and an expected text is a test. For every keyboard that loads (and does not omit what has no transform) a test passes exactly if it expects the concatenation of the texts of the keys of all tests so far, in order; the others are reported with their number in the file, what is seen and what is expected. The exit status is the number of failures modulo 256. An event with an unknown key or modifier ends the run with an error after everything before it is reported. Names of keys are those of the places of a keyboard with 48 keys, row by row.", "quantifier": "all keyboards that load, all test files of any length, all expected texts, with or without code points in messages", "why_tests_cant": "the keyboard keeps a history, so every test depends on all before it, and files have any length", "anchors": ["scripts/kbdtest", "lib/sldr/ldml_keyboard.py: Keyboard.process"]}
{"id": "C89", "title": "Normalising a tree of files: which files are rewritten, and when nothing is", "statement": "Given a directory, ldmlnormalize rewrites exactly the .xml and .ldml files in it and one level below: in place, each of them that can be read becomes its normal form, and those that cannot be read and all other files keep their content; with another output, each document that can be read has its normal form at the same place below the output and no other file is changed. The result does not depend on the order in which the system lists directories, and a second run in place changes nothing if normal forms are written as they are read. Refuted: the presence of one other file in the directory itself makes the script do nothing at all, with an error; with another output --validate judges the input and not what was written (in place it judges what was written). A document whose output directory does not exist stops the script: those listed before it have been written, it and those after it have not.", "quantifier": "every listing of plain, different names, every content of every file, every reader, writer, validator and set of writable paths", "why_tests_cant": "which files are touched depends on the whole directory tree and its listing order; the claim is for all of them", "anchors": ["scripts/ldmlnormalize"]}
{"id": "C90", "title": "The functions of the template language", "statement": "split gives the words of a text (its longest runs without white space, in order; they are unique), firstword the first of them, findsep the one with a given number counted from 0, or from the end if it is negative, and fails for any other number; of an empty text, or an empty set of nodes, all three give nothing without failing. default gives the first of its arguments whose text is not empty, or the empty text. choose takes its second argument if the first is a set with a node, a text that is not empty, or true, and otherwise the third. Refuted: firstword of white space fails though that of the empty text does not; an element without text is not skipped by default, whose result is then no text whatever defaults follow, and no word can be asked of it.", "quantifier": "every text, every set of nodes, every index and any number of defaults, any notion of white space", "why_tests_cant": "texts and lists of arguments are unbounded; examples do not show uniqueness of words or every index", "anchors": ["lib/sldr/xmltemplate.py: asstr, Templater.fn_firstword, fn_findsep, fn_choose, fn_split, fn_default"]}
{"id": "C91", "title": "The text of an exemplar list shows every character", "statement": "list2us writes the strings of a list between brackets with one space between them, each in braces if it has more than one character. With what ICU says of characters, no character written as itself is a format character, a space, default ignorable or in the private use area of the first plane, and a combining mark never stands at the start of a string or after a space; the text reads back as the same set. Refuted: private use characters of planes 15 and 16 up to U+FFF7F and U+10FF7F are not taken for private use and are written as they are; a mark that follows an escaped character is not escaped, so it stands on the last hexadecimal digit (with which it may compose when the file is normalised).", "quantifier": "every list of strings, every assignment of categories and ignorability to characters that is right about visible ASCII", "why_tests_cant": "lists, strings and the character table are unbounded", "anchors": ["lib/sldr/ldml_exemplars.py: UCD.need_hex_escape, is_pua, is_vs, ismark, isformat, is_space_separator", "lib/sldr/UnicodeSets.py: list2us, _hex_escape"]}
{"id": "C92", "title": "Adding draft levels to a schema keeps every line", "statement": "hackldmlattribs copies every line of its input to the output in order and puts one line with the other draft levels behind each line in which \"attribute draft\" stands, whatever the lines are; no other file is changed. Refuted: a second run adds the lines once more; a last line without newline that declares drafts gets the addition on the same line; with the same file as input and output everything is lost, and a missing input still empties the output.", "quantifier": "every file, as complete lines and an end, which every sequence of bytes is in exactly one way; every pair of names; every other content of the file system", "why_tests_cant": "files have any number of lines of any content", "anchors": ["scripts/hackldmlattribs"]}
{"id": "C93", "title": "Spelling dictionaries cannot be read", "statement": "One would rely on Hunspell(name) giving the words of the dictionary. Refuted for every input: a dictionary file with any line raises (NameError for the usual first line, the number of words), an empty one gives no words, a word with classes raises ValueError even if the dictionary were set up first, and with rules of affixes everything raises TypeError.", "quantifier": "every affix file and every dictionary file, any notion of white space and case", "why_tests_cant": "that no input at all works cannot be shown by trying some", "anchors": ["lib/sldr/hunspell.py: Aff.parse, Dic.parse, Hunspell"]}
{"id": "C94", "title": "Rewriting an ICU tailoring is all or nothing, and --adddot never adds a rule", "statement": "icupretty writes its output only after everything else has succeeded: if it fails, no file has changed, and it never changes a file other than the output. One would rely on --adddot adding the dotted rules. Refuted for every tailoring: as soon as one key ends in an asat (U+103A), the only keys it is meant for, the script ends with a TypeError; otherwise the option changes nothing. Without an output file the script ends in an error and shows nothing, for every input.", "quantifier": "every input file, tailoring, alphabet, choice of options and content of the file system; the reader, the minimiser and the writer of tailorings are arguments", "why_tests_cant": "that an option never works for any tailoring and never damages a file cannot be shown by trying some", "anchors": ["scripts/icupretty", "lib/sldr/collation.py: CollElement.__init__"]}
{"id": "C95", "title": "Merging with the script: only the output changes, and which options work", "statement": "ldmlmerge changes no file but its output, and given three readable files it writes the three way merge of them, normalised. Refuted: the date of generation is never brought up to date (with and without -G the result is the same, except that a changed document without identity is an error); --git ends in an error for every repository and changes nothing; without an output file nothing is ever shown; --verbose with two files is an error; a mistyped file of interest is taken as an empty document, and the output is written.", "quantifier": "all options, all contents of the file system and of the repository, all documents; reading, merging, normalising, flattening and writing are arguments", "why_tests_cant": "that an option never works and no other file is ever touched are statements about all documents and files", "anchors": ["scripts/ldmlmerge", "lib/sldr/ldml.py: Ldml.__init__"]}
{"id": "C96", "title": "Counting the possible multigraphs of a text", "statement": "With maxmultigraphs the collection of exemplars is the same as without. Of a text of single characters with no exemplars given, every string of one to four characters should be counted as often as it stands in the text. In any text a string of one to four characters is counted once for each piece (as the collection of exemplars cuts the text), other than a given exemplar, at whose start it stands; longer strings never. Refuted at the end of the text: a string the text ends in is counted 4 minus its length times too often (the last character always three times), and all others exactly; a text that ends in a given exemplar counts the empty string four times.", "quantifier": "all texts of any length, all strings of one to four characters, all character properties, all given exemplars for the first part", "why_tests_cant": "the counts range over all texts and all strings in them", "anchors": ["lib/sldr/ldml_exemplars.py: Exemplars.process (maxmultigraphs)"]}
{"id": "C97", "title": "What the escapes of a UnicodeSet and of a keyboard string denote", "statement": "us2list of a class without operators is the set of what its members denote, however each character is written: itself, after a backslash (a b t n v f r are the control characters 7 to 13, any other character is itself), \\xHH, \\uHHHH, \\UHHHHHHHH, \\ux{H...}, \\u{H...}, alone or in a string in braces, with spaces between; struni of a keyboard string is the concatenation of what its characters denote. A number that is no code point raises ValueError. Refuted: an escaped backslash before u0041 is read as the start of a hex escape; an escaped bracket after an escaped backslash ends the class; a space written as an escape is lost; \\u{5c} raises.", "quantifier": "all classes and strings of any length in any mixture of the seven notations, all hex digits, all characters", "why_tests_cant": "the notations combine without bound and the substitutions run one after another over the whole text", "anchors": ["lib/sldr/UnicodeSets.py:us2list", "lib/sldr/UnicodeSets.py:struni", "lib/sldr/UnicodeSets.py:parse", "lib/sldr/UnicodeSets.py:simpleescs", "lib/sldr/UnicodeSets.py:hexescre"]}
{"id": "C98", "title": "What the coverage script reads before it counts", "statement": "From supplementalData.xml the currency of a territory is the first listed that is in use today (today not before its from date nor after its to date; a date not given is no limit), the calendars of a territory are those of the last preference that names it. From coverageLevels.xml a variable has the last value given for it with ++ for + and the escaped quote replaced, and the entries of a level are all elements with its value, in order, with quotes doubled and brackets standing for themselves. Without --locale the locales are the .xml files of the directories and of their directories, each once, in order. Refuted: a date that is the year alone ends the script with IndexError when the year is this year. A date with an empty part or with a letter ends it with ValueError.", "quantifier": "all days, all lists of currencies, preferences, variables, levels and directories", "why_tests_cant": "the result depends on the day the script runs and on every document", "anchors": ["scripts/sldrcoverage:compare_now", "scripts/sldrcoverage: lines 77-87, 131-153", "scripts/sldrcoverage:CoverageLevel.__init__"]}
{"id": "C99", "title": "Clashes are noted, and comments survive being written and read", "statement": "Merging three documents (drafts not in use) adds to the comments of an element a note on its text if both sides changed it and a note on each attribute that both sides have with different values while the base does not have the value of this side; notes stand exactly at the elements that have different content in all three documents at every step of the way. An element is written between the comments before it and those after it, one to a line, in order. Comments read from a document, written and read again stand at the same elements. A written comment is read as it was exactly if it has no two hyphens in a row and does not end in one; a note on a text is such exactly if none of the three texts has two hyphens in a row. Refuted: the same change on both sides and an attribute changed on this side only are noted as clashes; a note on a text with two hyphens makes the saved document unreadable, or puts part of the note into the document; a comment after an element that is not the last is read as one before the next, and one after the root is lost.", "quantifier": "all triples of documents, all comments and all documents read", "why_tests_cant": "which element is noted depends on the nesting and on all three documents", "anchors": ["lib/sldr/ldml_merge.py:LdmlMerge.merge", "lib/sldr/ldml_merge.py:LdmlMerge.clash_text", "lib/sldr/ldml_merge.py:LdmlMerge.clash_attrib", "lib/sldr/ldml.py:ETWriter.serialize_xml", "lib/sldr/ldml.py:Ldml.__init__"]}
{"id": "C100", "title": "Sets within sets and the operators of UnicodeSets", "statement": "Reading a UnicodeSet as a list: between two characters within a class | is the union and & the intersection; between a character and a set that ends the class | is the union with it, & the intersection, and & with a negated set leaves out its members. Refuted: of two sets within a set with |, & or - between them only the first is read, the second is taken for the next element of a sequence and the last bracket for a character, so that no union, intersection or difference of two sets is ever computed; a negated set is read as the set itself; a character | a negated set raises an exception; a character - a set is a range if the set has one member, and otherwise the character and a hyphen, the set being lost.", "quantifier": "all characters and non-empty sets of characters that are not syntax", "why_tests_cant": "what an operator does depends on where the first closing bracket is, for sets of every length", "anchors": ["lib/sldr/UnicodeSets.py:parse", "lib/sldr/UnicodeSets.py:parseitem", "lib/sldr/UnicodeSets.py:us2list"]}
{"id": "C101", "title": "What the publishing script runs and where it uploads to", "statement": "sldr-flat-publish.sh runs, for its options in any order, repeated or behind one hyphen, and for every target of one of the three documented forms without white space, exactly these commands: unless -s is given, the removal and making of the flattened and unflattened files; the uploads of the SLDR and of these files to the place the target names; the uploads of the files given with -I and -L, the last of each. With -d every upload has --dry-run. With -s nothing but uploads is run. With -h, an unknown option, an option without its value or no target nothing is run and the status is 1. Refuted: a trial run (-d) without -s removes and rebuilds the flattened files; the uploads, which delete what is not in the source, are run even if making the files failed, and the status of the script is 0 whatever failed unless -L is given; a user with the name of the host is left out and a directory with the name of the place is not used; an empty target is the root of the local file system; a variable SKIPFLAT in the environment acts as -s.", "quantifier": "all lists of options, targets, statuses of the commands run", "why_tests_cant": "options combine in any number and order, and every command can fail", "anchors": ["scripts/sldr-flat-publish.sh"]}
{"id": "C102", "title": "Adding namespaces, elements and the SIL identity with the writer", "statement": "add_namespace returns the prefix that the table has for the URI afterwards, keeps the prefix of a URI that has one and changes no other; with a new URI and a proper prefix that is not in use, every document with names in it is written so that it is read back. addnode appends one element with exactly the attributes that are not None. add_silidentity changes the first element identity/special/sil:identity of the document, which is added with its parents if there is none: afterwards it has the attributes given, its other attributes, text and children are kept and every other element is unchanged. Refuted: add_namespace accepts a prefix that another URI has, and the names of both are then written alike and read back in one of the two namespaces; etwrite without namespaces writes every name in a namespace as its local name; an ETWriter made without namespaces fails with AttributeError and subelement always fails with NameError.", "quantifier": "all namespace tables, prefixes and URIs, element trees, keyword arguments, documents", "why_tests_cant": "tables, documents and attributes are unbounded and the effect shows only when a document is written and read again", "anchors": ["lib/sldr/ldml.py:ETWriter.__init__", "lib/sldr/ldml.py:ETWriter.add_namespace", "lib/sldr/ldml.py:ETWriter.addnode", "lib/sldr/ldml.py:ETWriter.subelement", "lib/sldr/ldml.py:etwrite", "lib/sldr/ldml.py:Ldml.add_silidentity"]}
{"id": "C103", "title": "Which files fixsldr repairs, the names it uses and what many processes write", "statement": "Without --locale fixsldr repairs the files of the input directories whose names end with .xml, each once and in sorted order. The English name of a language is the last one that the files en.xml of the input directories give, in their order; else the first one of the ISO file; else Unknown. If no two files have the same name and no result goes to another file that is to be repaired, then, however the files are divided among the processes and in whatever order these go on, exactly the files up to the first failure of each part are tried, each gets its repaired content and no other file changes; with one process the files up to the first failure are, and the script ends with that failure. Refuted: of two files with the same name in two directories one result is lost, with several processes either; with several processes failures are not reported and the rest of the part is left out; --locale with the name of a locale writes an empty document under that name; without --outdir nothing is written.", "quantifier": "all directories, tables of names, contents, failures, divisions into parts and schedules of the processes", "why_tests_cant": "the order of the processes and the place of failures are arbitrary", "anchors": ["scripts/fixsldr"]}
{"id": "C104", "title": "What sheetldml reads and writes", "statement": "sheetldml uses the rows of the sheets named Core, Posix, Minimal and Basic in the order of the spreadsheet, and no others. If every such sheet ends with a blank row and has no error of its own, the spreadsheet asks for what its sheets ask for, one after the other. Without -o the LDML written is what the rows ask for, in their order, in an empty document: it does not matter whether the LDML file was there. With -o the file written is the spreadsheet with sheets that are not used unchanged, everything but the cells of rows unchanged, and into each row exactly what that row asks for of the LDML. At most one file changes: the one of -o, else the LDML file; if the run fails none does, unless the LDML cannot be serialized. A row with an error makes the run fail. -t with -o ends with status 2 and nothing is read or written. Refuted: without a blank row at the end of a sheet a table goes on in the next sheet; -o with an empty name writes over the LDML file; an LDML file that is not there is no error with -o, the spreadsheet is written as it was.", "quantifier": "all spreadsheets, LDML documents, files, options and failures of reading, finding and writing", "why_tests_cant": "the number of sheets, rows and nodes and the points of failure are unbounded", "anchors": ["scripts/sheetldml", "lib/sldr/sheet.py: Sheet.__init__, Sheet._odssetup, Sheet._nexttsvrow, Sheet.process, Sheet.writeldml, Sheet.writeods"]}

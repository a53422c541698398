{"id": "C01", "title": "Packed ids read back exactly what was packed", "statement": "For an id type with any index width and any non-zero mask width, an id built from an index and a mask that both fit reports exactly that index and that mask, is never nil, and the nil id is the only value (for a given mask) that reports nil.", "quantifier": "all id widths, all mask widths strictly between 0 and the id width, all indices below 2^(index bits)-1, all masks", "why_tests_cant": "the index and mask ranges are 2^40 x 2^24 for the document store; a unit test samples a few of them and cannot cover every width the template is instantiated with", "anchors": ["src/hstd/stdlib/dod_base.hpp: dod::Id::FromMaskedIdx, getUnmasked, getMask, setMask, isNil, getIndex"]}
{"id": "C02", "title": "Changing one half of an id keeps the other half", "statement": "Setting the mask of an id keeps its index; setting the index part of an id keeps its mask.", "quantifier": "all id values and all new mask/index values that fit", "why_tests_cant": "depends on the exact shift arithmetic for every value; tests use mask 0 where the two readings coincide", "anchors": ["src/hstd/stdlib/dod_base.hpp: dod::Id::setMask, setUnmasked"]}
{"id": "C03", "title": "Stepping ids", "statement": "Advancing an id by n (or incrementing it) moves its index by exactly n and keeps its mask, as long as the index still fits; distance between two ids of the same mask inverts the step.", "quantifier": "all id values, all step counts", "why_tests_cant": "saturation happens at the full word width, not at the index width, so only boundary values differ", "anchors": ["src/hstd/stdlib/dod_base.hpp: dod::Id::operator++, operator--, operator+, distance"]}
{"id": "C04", "title": "Append-only store hands out permanent ids", "statement": "In an id-indexed store, the id returned by any add reads back the added value after any later sequence of adds, ids of different adds differ, and enumerating the store yields every (id, value) pair once, in insertion order.", "quantifier": "all operation histories of adds over any value type", "why_tests_cant": "quantifies over every later history", "anchors": ["src/hstd/stdlib/dod_base.hpp: dod::Store::add, at, contains, size, pairs, back, high, insert"]}
{"id": "C05", "title": "Interning: equal values share an id, different values never do", "statement": "After any sequence of adds to an interning store, two adds return the same id iff their values are equal, the returned id always reads back that value, ids handed out earlier never change meaning and the number of stored values equals the number of distinct values added.", "quantifier": "all histories of adds (with and without type masks) over any value type with decidable equality", "why_tests_cant": "every interleaving of repeated and new values", "anchors": ["src/hstd/stdlib/dod_base_intern.hpp: dod::InternStore::add, contains, insert, at"]}
{"id": "C06", "title": "Document node id carries kind and index without interference", "statement": "The 64-bit id of an immutable document node encodes node kind and per-kind index so that both are recovered exactly, and two ids are equal iff kind and index are equal.", "quantifier": "all kinds below 4096 and all indices below 2^40 - 1", "why_tests_cant": "64-bit arithmetic over the whole range", "anchors": ["src/haxorg/imm/ImmOrgBase.hpp: ImmId::combineMask, combineFullValue, getKind, getNodeIndex"]}
{"id": "C07", "title": "Flat parse tree is the tree the parser opened and closed", "statement": "For every tree of node kinds and tokens, the sequence of open-tree / add-token / close-tree calls that walks it builds a flat node sequence whose child iteration, at every node, returns exactly the roots of that node's children, in order, and whose recorded extents delimit exactly the descendants.", "quantifier": "all finite trees of any shape and depth", "why_tests_cant": "nesting depth and fan-out are unbounded", "anchors": ["src/haxorg/lexbase/NodeStore.hpp: NodeGroup::startTree, endTree, token, subnodesOf, iterator", "src/haxorg/lexbase/Node.cpp"]}
{"id": "C08", "title": "Indexing and counting children agree with iteration", "statement": "The number of children reported for a node equals the number of nodes returned by child iteration, and the i-th child lookup returns the i-th iterated child for every i in range.", "quantifier": "all trees, all nodes, all indices", "why_tests_cant": "unbounded trees", "anchors": ["src/haxorg/lexbase/Node.cpp: NodeGroup::size, subnode, getExtent/getSubnodeRange"]}
{"id": "C09", "title": "Parent lookup", "statement": "Asking for the parent of any node of a flat parse tree returns the node one level up, for the root it returns nothing, and the query always terminates.", "quantifier": "all trees and nodes", "why_tests_cant": "needs every tree shape; divergence cannot be observed as a test failure", "anchors": ["src/haxorg/lexbase/Node.cpp: NodeGroup::parent"]}
{"id": "C10", "title": "Node equality", "statement": "Two parse nodes compare equal only if they have the same kind and the same payload (both tokens with the same token, or both trees with the same extent).", "quantifier": "all pairs of nodes", "why_tests_cant": "pairs of different payload alternatives with equal kind are easy to miss", "anchors": ["src/haxorg/lexbase/Node.hpp: Node::operator=="]}
{"id": "C11", "title": "Token cursor stays in range and consumes each token once", "statement": "For any sequence of advance/retreat/skip operations on a token cursor, the current token (when the cursor reports one) is always a token of the group, popping until the end yields each remaining token exactly once in order, and skipping over a kind set stops at the first token outside the set.", "quantifier": "all token sequences and all operation histories", "why_tests_cant": "histories are unbounded", "anchors": ["src/haxorg/lexbase/Lexer.hpp: LexerCommon::next, hasNext, pop, skip, find, getInside"]}
{"id": "C12", "title": "Sub-lexer lookahead sees the sub-lexer's own tokens", "statement": "Looking ahead by an offset in a lexer over a selected subset of tokens returns the token at that distance within the selection.", "quantifier": "all selections, positions and offsets", "why_tests_cant": "coincides for contiguous selections, which is all tests use", "anchors": ["src/haxorg/lexbase/Lexer.hpp: LexerCommon::get, SubLexer::next"]}
{"id": "C13", "title": "Integer sets behave as mathematical sets", "statement": "Membership, insertion, removal, union, intersection, symmetric difference, complement, size, subset tests and iteration of a bit-set over a finite domain agree with the mathematical set, iteration is strictly ascending, and two sets are equal iff they have the same members.", "quantifier": "all domains of any size, all sets, all histories of operations", "why_tests_cant": "2^domain sets", "anchors": ["src/hstd/stdlib/IntSet.hpp: IntSet", "src/hstd/stdlib/SetCommon.hpp: SetBase"]}
{"id": "C14", "title": "Slices: containment, narrowing, overlap", "statement": "For inclusive ranges: membership, containment of ranges, and overlap agree with the set of points covered; narrowing and widening move both ends as documented.", "quantifier": "all integer ranges", "why_tests_cant": "boundary-touching and one-point ranges are corner cases over an infinite domain", "anchors": ["src/hstd/stdlib/Slice.hpp: Slice::contains, overlap, narrow, expand, resize, getSpan"]}
{"id": "C15", "title": "Range index query equals linear scan", "statement": "Querying the range index built from any list of ranges at any point returns exactly the ranges that contain the point (as a multiset).", "quantifier": "all lists of ranges, all points", "why_tests_cant": "tree shape depends on all inputs", "anchors": ["src/hstd/stdlib/RangeTree.hpp: RangeTree::build, buildRec, getRanges, query"]}
{"id": "C16", "title": "Segmenting overlapping ranges covers every point", "statement": "Splitting a set of named range groups into flat segments yields disjoint, ordered segments covering every point covered by an input, each annotated with exactly the groups present at all its points.", "quantifier": "all range groups", "why_tests_cant": "off-by-one at the last point only shows for particular end configurations", "anchors": ["src/hstd/stdlib/RangeSegmentation.cpp: annotateSequence"]}
{"id": "C17", "title": "Path tracker restores the path", "statement": "After any properly nested sequence of scope enters, the reported path is exactly the list of enclosing keys in order and leaving a scope restores the previous path.", "quantifier": "all nested histories", "why_tests_cant": "unbounded nesting", "anchors": ["src/hstd/stdlib/RecursivePathTracker.hpp"]}
{"id": "C18", "title": "Vector ordering is an ordering", "statement": "The less-than comparison of vectors (and of document paths and unique node ids, which use it) is a strict weak order, so that it can be used by ordered containers and sorts.", "quantifier": "all triples of vectors / paths / ids", "why_tests_cant": "needs transitivity over all triples", "anchors": ["src/hstd/stdlib/Vec.hpp: Vec::operator<, itemwise_less_than", "src/haxorg/imm/ImmOrg.hpp: ImmPath::operator<, ImmUniqId::operator<"]}
{"id": "C19", "title": "Splitting text loses nothing", "statement": "Splitting with separators kept and re-joining gives the original text, the pieces contain separators only as whole pieces; splitting on a character and joining with that character gives back the text except for a documented trailing separator.", "quantifier": "all strings, all delimiter sets", "why_tests_cant": "all strings", "anchors": ["src/hstd/stdlib/strutils.cpp: split_keep_separator, split", "src/hstd/stdlib/strutils.hpp: join"]}
{"id": "C20", "title": "Replace-all and prefix/suffix trimming", "statement": "Replacing all occurrences terminates and yields a string in which the scan found each non-overlapping occurrence exactly once left to right; trimming removes exactly the longest run of the given characters on each side.", "quantifier": "all strings, patterns and replacements", "why_tests_cant": "empty patterns hang instead of failing", "anchors": ["src/hstd/stdlib/strutils.cpp: replace_all, strip, strip_space", "src/hstd/stdlib/Str.cpp: Str::replaceAll, dropPrefix, dropSuffix"]}
{"id": "C21", "title": "UTF-8 validation and rune chunking", "statement": "Text validation accepts exactly well-formed sequences as specified by its tables, rune chunking of any text concatenates back to the text and the rune count equals the number of non-continuation bytes.", "quantifier": "all byte strings", "why_tests_cant": "2^(8n) inputs", "anchors": ["src/hstd/stdlib/strutils.cpp: validate_utf8, rune_length, rune_chunks"]}
{"id": "C22", "title": "Escaping for output is reversible", "statement": "Different texts never escape to the same output.", "quantifier": "all pairs of strings", "why_tests_cant": "needs pairs", "anchors": ["src/hstd/stdlib/strutils.cpp: escape_for_write, escape_literal"]}
{"id": "C23", "title": "Aligning text to a column", "statement": "Left/right alignment pads to exactly max(width, length) characters and keeps the text as prefix/suffix; identifier normalisation is idempotent and ignores case, dashes and underscores.", "quantifier": "all strings, widths, fill characters", "why_tests_cant": "all strings", "anchors": ["src/hstd/stdlib/strutils.cpp: left_aligned, right_aligned, normalize"]}
{"id": "C24", "title": "Two-way maps stay mirror images", "statement": "After any sequence of successful additions and removals, a one-to-one map's left and right lookups are mutual inverses, and a failed addition leaves the map unchanged.", "quantifier": "all operation histories", "why_tests_cant": "histories", "anchors": ["src/hstd/ext/bimap_wrap.hpp: Unordered1to1Bimap, UnorderedNto1Bimap"]}
{"id": "C25", "title": "Source file registry", "statement": "Registering sources gives each path one id; path-of-id and id-of-path are inverse for every registered source after any registration history.", "quantifier": "all registration histories", "why_tests_cant": "histories", "anchors": ["src/haxorg/lexbase/SourceManager.cpp: SourceManager::addSource, getPath, getId"]}
{"id": "C26", "title": "Edit distance is minimal and its script is valid", "statement": "The reported edit distance between two sequences is the minimum cost of any edit script, and the reported operations transform the first sequence into the second with exactly that cost.", "quantifier": "all pairs of sequences over any element type with decidable equality", "why_tests_cant": "minimality quantifies over all scripts", "anchors": ["src/hstd/stdlib/diffs.hpp: levenshteinDistance"]}
{"id": "C27", "title": "Myers diff returns a valid, shortest script", "statement": "The Myers diff of any two sequences terminates with a script of keeps, inserts and deletes that rewrites the first sequence into the second, and no script with fewer inserts+deletes exists.", "quantifier": "all pairs of sequences", "why_tests_cant": "minimality quantifies over all scripts; the furthest-reaching argument is global", "anchors": ["src/hstd/stdlib/diffs.cpp: myersDiff"]}
{"id": "C28", "title": "Longest common subsequence", "statement": "The longest-common-subsequence routine returns index lists of a common subsequence of maximal length.", "quantifier": "all pairs of sequences", "why_tests_cant": "maximality quantifies over all subsequences", "anchors": ["src/hstd/stdlib/diffs.hpp: longestCommonSubsequence"]}
{"id": "C29", "title": "Fuzzy matching", "statement": "A successful fuzzy match returns strictly increasing positions at which the text equals the pattern items, in order, and a pattern matches iff it is a subsequence of the text.", "quantifier": "all patterns and texts", "why_tests_cant": "all pairs", "anchors": ["src/hstd/stdlib/diffs.hpp: FuzzyMatcher::fuzzy_match_recursive"]}
{"id": "C30", "title": "Aligned diff keeps every item", "statement": "The side-by-side shifted form of any diff contains every index of the old and new sequence exactly once and in order.", "quantifier": "all diffs", "why_tests_cant": "all diffs", "anchors": ["src/hstd/stdlib/diffs.cpp: ShiftedDiff"]}
{"id": "C31", "title": "Vertex hierarchy: parent and child views agree", "statement": "After any sequence of hierarchy operations, a vertex is listed among the children of p iff its parent is p, and root vertices are exactly tracked vertices without parent.", "quantifier": "all operation histories", "why_tests_cant": "histories", "anchors": ["src/hstd/ext/graph/base/graph_hierarchy.cpp: IVertexHierarchy::trackVertex, trackSubVertexRelation, untrackSubVertexRelation, untrackVertex"]}
{"id": "C32", "title": "Hierarchy is acyclic / ancestor queries terminate", "statement": "No accepted operation makes a vertex its own ancestor, so ancestor chains terminate at a root.", "quantifier": "all operation histories", "why_tests_cant": "non-termination is not observable as a test failure", "anchors": ["src/hstd/ext/graph/base/graph_hierarchy.cpp: IVertexHierarchy::trackSubVertexRelation, getParentChain"]}
{"id": "C33", "title": "Hierarchy relation can be removed and re-added", "statement": "Removing a parent-child relation and adding it again succeeds and restores the same state.", "quantifier": "all states", "why_tests_cant": "state left behind is not visible until the second add", "anchors": ["src/hstd/ext/graph/base/graph_hierarchy.cpp: untrackSubVertexRelation, trackSubVertexRelation"]}
{"id": "C34", "title": "Edge collection: incidence lists agree with edges", "statement": "After any sequence of edge additions/removals, outgoing and incoming edge lists of each vertex contain exactly the tracked edges with that endpoint, and the set of predecessors is exactly the set of sources of incoming edges.", "quantifier": "all operation histories", "why_tests_cant": "histories with parallel edges", "anchors": ["src/hstd/ext/graph/base/graph_edge.cpp: IEdgeCollection::trackEdge, untrackEdge, getOutgoing, getIncoming, getInNodes, isTrackingEdge"]}
{"id": "C35", "title": "Ports", "statement": "A port belongs to one vertex for ever, each connection is recorded at most once, and lookup by (edge, side) returns the connected port.", "quantifier": "all operation histories", "why_tests_cant": "histories", "anchors": ["src/hstd/ext/graph/base/graph_port.cpp: IPortCollection::addPort, connectPort, getPortForConnection"]}
{"id": "C36", "title": "Edits never change older document versions", "statement": "After any sequence of edits, every previously obtained version of a document still denotes exactly the same tree.", "quantifier": "all edit histories over all documents", "why_tests_cant": "all histories", "anchors": ["src/haxorg/imm/ImmOrgStore.cpp: ImmAstStore::setNode, cascadeUpdate; ImmAstContext::finishEdit"]}
{"id": "C37", "title": "Replacing a node at a path updates exactly that position", "statement": "Committing a replacement of the node at a path yields a document equal to the old one with the subtree at that path replaced, all other positions unchanged.", "quantifier": "all documents, paths and replacement nodes", "why_tests_cant": "unbounded depth; interned sharing means the same id occurs at many positions", "anchors": ["src/haxorg/imm/ImmOrgStore.cpp: cascadeUpdate, recurseUpdateSubnodes, setSubnodes"]}
{"id": "C38", "title": "Child-list edits do what their names say", "statement": "Insert/append/drop/pop/move/swap of children produce the corresponding list edit and leave other children untouched; positions out of range are rejected.", "quantifier": "all child lists and positions", "why_tests_cant": "all lists, positions", "anchors": ["src/haxorg/imm/ImmOrgEdit.cpp: insertSubnodes, appendSubnode, dropSubnode, popSubnode, moveSubnode, swapSubnode"]}
{"id": "C39", "title": "Ancestor chain of a node", "statement": "The ancestor chain of a node lists each proper ancestor exactly once from nearest to root; a node is never its own ancestor.", "quantifier": "all documents and positions", "why_tests_cant": "all depths", "anchors": ["src/haxorg/imm/ImmOrg.cpp: ImmAdapter::getParentChain, isIndirectParentOf, pathSpans"]}
{"id": "C40", "title": "Radio-target grouping keeps all child nodes in order", "statement": "Grouping the children of a paragraph into plain nodes, radio-target hits and tracked hashtags partitions the children: concatenating the groups gives the children back, in order.", "quantifier": "all child sequences and all sets of radio targets", "why_tests_cant": "all sequences", "anchors": ["src/haxorg/imm/ImmOrg.cpp: getSubnodeGroups, tryRadioTargetSearch"]}
{"id": "C41", "title": "Mind-map links: every resolvable link gets its edge", "statement": "After adding nodes in any order, for every link whose target node was added there is an edge from the link's node to the target, and a link is listed unresolved iff its target was not added.", "quantifier": "all insertion orders of all node sets", "why_tests_cant": "order of insertion matters", "anchors": ["src/haxorg/imm/ImmOrgGraph.cpp: addNode, getUnresolvedEdits/fill_resolved_nodes, updateResolvedEdges, removeUnresolvedNodeProps"]}
{"id": "C42", "title": "Pretty-printer choice picks the cheapest layout at every column", "statement": "Combining alternative layouts gives, at every start column, the minimum of the alternatives' costs, and combining always terminates.", "quantifier": "all alternative cost functions and all columns", "why_tests_cant": "all columns; non-termination is not a test failure", "anchors": ["src/hstd/ext/textlayouter.cpp: minSolution, Solution::add, moveToMargin"]}
{"id": "C43", "title": "Stacked layouts add their costs", "statement": "Vertical composition of layouts has, at every column, the sum of the parts' costs and the span of the last part.", "quantifier": "all cost functions, all columns", "why_tests_cant": "all columns", "anchors": ["src/hstd/ext/textlayouter.cpp: vSumSolution"]}
{"id": "C44", "title": "Recursive document loading terminates and loads each path once", "statement": "Loading a directory or a file with includes terminates for every finite file system, including symlink and include cycles, and parses each file at most once.", "quantifier": "all finite file-system graphs", "why_tests_cant": "cycles through includes/symlinks of any length", "anchors": ["src/haxorg/api/ParseContext.cpp: parsePathAux, parseFileAux, postProcessInclude, resolvePath"]}
{"id": "C45", "title": "Paragraph body and lead nodes", "statement": "The body of a paragraph is the paragraph's children without the leading admonition/footnote/timestamp/hashtag nodes: nothing after the first ordinary node is dropped and no ordinary node is dropped.", "quantifier": "all paragraphs", "why_tests_cant": "all child sequences", "anchors": ["src/haxorg/sem/SemOrgSharedApi.cpp: Paragraph_dropAdmonitionNodes, Org_getLeadNodes"]}
{"id": "C46", "title": "Property inheritance", "statement": "The effective property of a node is the last defined value along the ancestor stack; for custom-argument properties, named arguments of inner definitions override outer ones key by key and other keys are kept.", "quantifier": "all stacks of property definitions", "why_tests_cant": "all stacks", "anchors": ["src/haxorg/sem/SemOrgSharedApi.cpp: Org_combinePropertyStack"]}
{"id": "C47", "title": "Comment block extraction", "statement": "Extracting comment fragments from source text yields fragments in line order, non-overlapping, each starting at a line containing a comment prefix.", "quantifier": "all texts and prefix lists", "why_tests_cant": "all texts", "anchors": ["src/haxorg/api/ParseContext.cpp: extractCommentBlocks"]}
{"id": "C48", "title": "Reading a bracketed group of tokens", "statement": "Collecting the inside of a bracketed token group returns exactly the tokens strictly between the opening delimiter and its matching closing delimiter and leaves the cursor just after the closing one.", "quantifier": "all token sequences containing a balanced group, any nesting", "why_tests_cant": "nesting depth and adjacency of delimiters are unbounded; tests use flat groups", "anchors": ["src/haxorg/lexbase/Lexer.hpp: LexerCommon::getInside"]}
{"id": "C49", "title": "A failed hierarchy call changes nothing", "statement": "When adding or removing a vertex or a parent-child relation reports an error, the hierarchy is exactly as before the call.", "quantifier": "all hierarchy states and operations", "why_tests_cant": "needs comparing the whole state after every way of failing", "anchors": ["src/hstd/ext/graph/base/graph_hierarchy.cpp: IVertexHierarchy::trackSubVertexRelation (edge registered last), trackVertex, untrackVertex, untrackSubVertexRelation"]}
{"id": "C50", "title": "Removing a vertex from a graph", "statement": "Removing a tracked vertex from a graph succeeds, the graph no longer lists it, and each edge collection loses exactly the edges touching it.", "quantifier": "all graphs, histories and vertices", "why_tests_cant": "the effect on every collection for every history", "anchors": ["src/hstd/ext/graph/base/graph_base.cpp: IGraph::untrackVertex, getEdgeProviders", "src/hstd/ext/graph/base/graph_edge.cpp: IEdgeCollection::untrackVertex"]}
{"id": "C51", "title": "Hierarchy crossings of an edge", "statement": "For two vertices of one hierarchy tree the crossed vertices are those strictly between source and lowest common ancestor, then those strictly between it and the target, in order from source to target.", "quantifier": "all trees and vertex pairs", "why_tests_cant": "all shapes and depths of trees", "anchors": ["src/hstd/ext/graph/base/graph_hierarchy.cpp: IVertexHierarchy::getHierarchyCrossings"]}
{"id": "C52", "title": "Common ancestor of a vertex set", "statement": "The common ancestor query returns the lowest vertex that is, or is above, every vertex of the set, and nothing if there is none.", "quantifier": "all trees and vertex sets", "why_tests_cant": "all trees and iteration orders of a hash set", "anchors": ["src/hstd/ext/graph/base/graph_hierarchy.cpp: IVertexHierarchy::getCommonAncestor"]}
{"id": "C53", "title": "Ancestor chain up to a bound; nesting level", "statement": "The bounded ancestor chain stops at the given ancestor, and the nesting level is one more than the greatest depth of a tracked vertex.", "quantifier": "all trees and vertices", "why_tests_cant": "all tree shapes", "anchors": ["src/hstd/ext/graph/base/graph_hierarchy.cpp: IVertexHierarchy::getParentChainUntil, getMaxNestingLevel"]}
{"id": "C54", "title": "Side-by-side layouts share one overhang", "statement": "Setting one layout to the right of another costs, at every column, the sum of both costs with the part of the first one's overhang that the second pays again counted only once; so a line of several texts costs what one text of the total width costs.", "quantifier": "all pairs of layouts, all columns, all lines of texts", "why_tests_cant": "a pointwise statement about every column and every split of a line", "anchors": ["src/hstd/ext/textlayouter.cpp: Solution::plus (hPlus), doOptLineLayout"]}
{"id": "C55", "title": "A text pays for the columns that stick out", "statement": "A text of width w started in column m costs leftMarginCost per column beyond the left margin plus rightMarginCost per column beyond the right margin.", "quantifier": "all widths, columns and margin settings", "why_tests_cant": "all combinations of width, column and margins", "anchors": ["src/hstd/ext/textlayouter.cpp: doOptTextLayout"]}
{"id": "C56", "title": "Printing a layout", "statement": "Printing a layout emits every text and line break exactly once, in order, and each nested layout starts its lines in the column where it was placed.", "quantifier": "all layouts", "why_tests_cant": "nesting depth is unbounded", "anchors": ["src/hstd/ext/textlayouter.cpp: layout::formatEvents"]}
{"id": "C57", "title": "Laying out loses no text", "statement": "Every layout offered for a block contains the texts of one reading of the block: all texts of lines and stacks in order, one alternative of each choice, line breaks only between stacked parts.", "quantifier": "all blocks and options", "why_tests_cant": "nesting of lines, stacks and choices is unbounded", "anchors": ["src/hstd/ext/textlayouter.cpp: doOptLayout and the doOpt*Layout functions for text, line, stack and choice; BlockStore::toLayouts"]}
{"id": "C58", "title": "Import into and export from the immutable store", "statement": "A document imported into an immutable context and exported again is the same document; two ids obtained from one context are equal exactly when the trees they stand for are.", "quantifier": "all documents, all histories of a context", "why_tests_cant": "all trees; structural sharing means that equality of ids must hold for every pair of values ever interned", "anchors": ["src/haxorg/imm/ImmOrgStore.cpp: ImmAstContext::addRoot, ImmAstStore::add, get; ImmAstKindStore::add", "src/haxorg/imm/ImmOrgHash.cpp: equality of node values without source location"]}
{"id": "C59", "title": "Names found after edits lead to the right nodes", "statement": "After any sequence of additions and replacements of nodes, looking up a subtree id, custom id, footnote, name, hashtag definition or radio word gives only nodes that have it, and every node of the document is found under all its names.", "quantifier": "all sequences of additions and replacements", "why_tests_cant": "the maps are updated incrementally; errors show up only after particular histories", "anchors": ["src/haxorg/imm/ImmOrg.cpp: ImmAstEditContext::updateTracking", "src/haxorg/imm/ImmOrgStore.cpp: ImmAstStore::add, setNode"]}
{"id": "C60", "title": "Time periods of a heading", "statement": "The time periods of a heading are exactly those of the kinds asked for: times in the title, deadline, schedule, closing, clock and creation times, each once and in the order of the text.", "quantifier": "all headings, all sets of kinds", "why_tests_cant": "every combination of sources and kinds", "anchors": ["src/haxorg/sem/SemOrgSharedApi.cpp: Subtree_getTimePeriodsImpl"]}
{"id": "C61", "title": "Setting a property of a heading", "statement": "After a property of a heading is set, reading it by the same name gives the value set, and reading any other property gives what it gave before.", "quantifier": "all property lists, all names and subkinds", "why_tests_cant": "writing and reading compare names differently; the difference shows only for particular combinations of spelling and kind", "anchors": ["src/haxorg/sem/SemOrgApi.cpp: setPropertyStrValue, setProperty, removeProperty, isMatching", "src/haxorg/sem/SemOrgSharedApi.cpp: subtreeGetPropertyImpl"]}
{"id": "C62", "title": "Attributes of a statement", "statement": "Looking up an attribute by name gives all arguments written under that name in any spelling, in the order of the text, first the statement's own and then those of attached lines; the first attribute is the first of these; without a name all arguments are given once.", "quantifier": "all argument lists, all attached lines", "why_tests_cant": "all combinations of names and spellings", "anchors": ["src/haxorg/sem/SemConvert.cpp: addArgument", "src/haxorg/sem/SemOrgApi.cpp: AttrGroup::getAttrs, getFlatArgs", "src/haxorg/sem/SemOrgSharedApi.cpp: Stmt_getAttrs, Cmd_getAttrs, Cmd_getFirstAttr"]}
{"id": "C63", "title": "Nested hashtags", "statement": "A nested hashtag matches a prefix exactly when the prefix is a path in it; its flat forms are the paths to its leaves in order, and with intermediate tags also every inner path once.", "quantifier": "all nested hashtags, all prefixes", "why_tests_cant": "nesting and repetition are unbounded", "anchors": ["src/haxorg/sem/SemOrgApi.cpp: HashTagText::prefixMatch, getFlatHashes"]}
{"id": "C64", "title": "Included text keeps its own place", "statement": "When documents are loaded with their includes, every include and every file link is resolved against the directory of the file it is written in, once: an include has as children only what it wrote itself and the one file, directory or error it resolves to, and a link one reference.", "quantifier": "all file systems and documents, all nestings of includes", "why_tests_cant": "nested includes in different directories combine without bound", "anchors": ["src/haxorg/api/ParseContext.cpp: postProcessFileReferences, postProcessInclude, postProcessFileLink, resolvePath", "src/haxorg/api/SemBaseApi.cpp: eachSubnodeRec"]}
{"id": "C65", "title": "Tokens are the text", "statement": "Whatever the lexer returns for a text, the texts of its tokens put one after another are the text, each token says at which offset it begins, and its line and column are those of that offset.", "quantifier": "all texts (all byte sequences)", "why_tests_cant": "the lexer has a hundred cases whose ends and beginnings have to meet; a gap or an overlap needs the one text in which two of them meet", "anchors": ["src/haxorg/base_lexer/base_token_tokenize.cpp: tokenize, switch_regular_char and everything it calls"]}
{"id": "C66", "title": "Lexing always gives a result", "statement": "Lexing a text ends and gives a list of tokens: it does not run for ever, does not end the process, reads no memory it does not own and does not throw.", "quantifier": "all texts", "why_tests_cant": "only texts that end in the middle of something fail, in ways that depend on where they end", "anchors": ["src/haxorg/base_lexer/base_token_tokenize.cpp: tokenize, switch_regular_char, switch_command, get_end_block_offset, switch_cmd_argument, switch_word"]}
{"id": "C67", "title": "Plain text is lexed word by word", "statement": "A text of words separated by single spaces gives a word token for every word, a space for every space and a newline for every line end, and a separator row of a table gives a token of that row.", "quantifier": "all texts of plain words", "why_tests_cant": "which words are taken for something else is decided by prefixes compared in nested branches; a test only has the words someone thought of", "anchors": ["src/haxorg/base_lexer/base_token_tokenize.cpp: switch_regular_char, switch_word, is_at_table_separator"]}
{"id": "C68", "title": "Regrouping loses nothing", "statement": "Turning the tokens of a document into nested lists and blocks keeps every token, in order, with its text, except for indentation removed from source code, and adds only markers; it never gets stuck.", "quantifier": "all token sequences", "why_tests_cant": "tokens are moved through lines, groups and nested groups; a loss shows only for the one nesting in which a branch forgets its remainder", "anchors": ["src/haxorg/parse/OrgTokenizer.cpp: to_lines, to_groups, rec_convert_groups, rec_add_line"]}
{"id": "C69", "title": "Nesting markers match the indentation", "statement": "Opening and closing markers are balanced for every document, and every list item comes directly after a marker and is nested as deeply as the items before it that it is indented under.", "quantifier": "all token sequences; all plain lists", "why_tests_cant": "nesting depends on the whole sequence of indentations before an item", "anchors": ["src/haxorg/parse/OrgTokenizer.cpp: rec_convert_groups"]}
{"id": "C70", "title": "Source code keeps its shape", "statement": "From the lines of a source block the same number of spaces is removed, namely the indentation all of its lines have in common with the line that opens it, and nothing else changes.", "quantifier": "all source blocks", "why_tests_cant": "the amount to remove depends on all lines of the block, and removing too much throws", "anchors": ["src/haxorg/parse/OrgTokenizer.cpp: rec_convert_groups, GroupToken::isSrc, LineToken::setIndent"]}
{"id": "C71", "title": "Two empty lines end a list", "statement": "Items with the same indentation belong to the same list unless two empty lines follow the first of them, in which case a new list begins.", "quantifier": "all plain lists", "why_tests_cant": "the end of an item's last line is looked at, which may be any line of any item", "anchors": ["src/haxorg/parse/OrgTokenizer.cpp: rec_convert_groups, LineToken::isListBreakingItem"]}
{"id": "C72", "title": "The kind of a token says what its text is", "statement": "For every kind of token the text has the spelling of that kind: a newline token is a newline, stars are stars, a command has the name it stands for up to letter case and separators, a link protocol is that protocol, and so on; every command marker is followed by a command name.", "quantifier": "all texts", "why_tests_cant": "a token gets its kind and its extent from different branches, one mismatch makes a later stage read a part of the next word; there are more than a hundred kinds", "anchors": ["src/haxorg/base_lexer/base_token_tokenize.cpp: tokenize and all switch_ functions, src/haxorg/parse/OrgTokenizer.cpp: whichBlockLineKind"]}
{"id": "C73", "title": "Every lexed document can be regrouped", "statement": "If a text can be cut into tokens the tokens can be turned into lines, groups and nested lists without an exception.", "quantifier": "all texts", "why_tests_cant": "the exceptions are raised for token sequences one would not write; whether the lexer can produce them needs both stages together", "anchors": ["src/haxorg/parse/OrgTokenizer.cpp: to_lines, to_groups, rec_convert_groups, setLineCommandKind", "src/haxorg/base_lexer/base_token_tokenize.cpp: switch_command"]}
{"id": "C74", "title": "The tokens given to the parser are the tokens of the document", "statement": "Turning the regrouped tokens into those for the parser keeps their order and positions and loses no word: marks get a role, delimiters (brackets of a footnote, the at sign of a name, the prefix of inline code) are cut off, a command is split into prefix, name and arguments, quoted arguments are joined.", "quantifier": "all texts that can be tokenized", "why_tests_cant": "every kind of token is treated separately; a token skipped twice or dropped needs a particular neighbour", "anchors": ["src/haxorg/parse/OrgTokenizer.cpp: OrgTokenizer::convert, map_interpreted_token, map_line_command, map_command_args"]}
{"id": "C75", "title": "Marks around words open and close markup", "statement": "In text made of words a mark in front of a word opens bold, italic, underlined, struck out or verbatim text and a mark behind a word closes it.", "quantifier": "all lines of words with marks", "why_tests_cant": "the role depends on both neighbours of the mark, which come from two other stages; examples in tests have marks in the middle of a line", "anchors": ["src/haxorg/parse/OrgTokenizer.cpp: recombine_markup, EmptyToken", "src/haxorg/base_lexer/base_token_tokenize.cpp: switch_regular_char"]}
{"id": "C76", "title": "Parsing gives one tree", "statement": "Whatever the tokens, when parsing returns the nodes are one tree rooted in a list of statements: every node is followed by exactly its children and says how many nodes are below it.", "quantifier": "all token sequences", "why_tests_cant": "the tree is built by more than eighty functions that open, close and abandon nodes on every error path, and is then edited in place to nest headings; an unbalanced path needs its own input", "anchors": ["src/haxorg/parse/OrgParser.cpp: parseTop, parseFull, extendSubtreeTrails, assertValidStructure", "src/haxorg/parse/OrgParser.hpp: NodeGuard", "src/haxorg/lexbase/Node.cpp: NodeGroup::endTree"]}
{"id": "C77", "title": "Parsing loses no text", "statement": "The tokens in the tree, from left to right, are tokens of the document in order and none occurs twice; every token with text of the author is in the tree, only notation (blanks, brackets, marks, command names, comments), the names of days and line labels in code can be missing.", "quantifier": "all token sequences on which parsing returns", "why_tests_cant": "a token can be dropped by any of the skips of any function, also while recovering from an error, and the lookahead that guards the skip uses other conditions than the skip", "anchors": ["src/haxorg/parse/OrgParser.cpp: all parse functions", "src/haxorg/lexbase/Lexer.hpp: next, pop, setPos, SubLexer", "src/haxorg/parse/OrgParserUtils.cpp"]}
{"id": "C78", "title": "Every document can be parsed", "statement": "For every document parsing ends and returns a tree; syntax errors are nodes of the tree, not exceptions.", "quantifier": "all documents", "why_tests_cant": "needs inputs nobody writes on purpose", "anchors": ["src/haxorg/parse/OrgParser.cpp: parseTop, parseAngleTarget, parseFootnote, parseCriticMarkup, parseMacro, parseTextWrapCommand, parseSrc"]}
{"id": "C79", "title": "Headings nest by their level", "statement": "After parsing, the statements below a heading are exactly those that follow it in the document up to the next heading that is not deeper; nothing is lost, added or reordered by the nesting, and only one tree nests the statements in this way.", "quantifier": "all token sequences whose statements have no heading inside them and whose headings have stars", "why_tests_cant": "deep and irregular sequences of levels; the nesting is made by rewriting the extents of a flat array", "anchors": ["src/haxorg/parse/OrgParser.cpp: OrgParser::extendSubtreeTrails, parseSubtree", "src/haxorg/parse/OrgTypes.hpp"]}
{"id": "C80", "title": "Nodes of the parse tree have the fields of their kind", "statement": "In the tree of every document each node has the fields of its kind in their fixed places: nine for a heading, five for a list item, four for a source block, and so on; only a node with a reported error below it can have other fields, and never a heading.", "quantifier": "all token sequences that parse", "why_tests_cant": "each parse function builds its fields by hand along many branches", "anchors": ["src/haxorg/parse/OrgParser.cpp: all parse functions", "src/haxorg/parse/OrgSpec.cpp:84-500"]}
{"id": "C81", "title": "A slice of a string is the characters between its ends", "statement": "Taking a slice of a string from a first to a last place, counted from the front or from the back, gives exactly the characters from the first to the last place.", "quantifier": "all strings and all slices inside them", "why_tests_cant": "the result is right for slices from one particular place, so a test may pass by chance", "anchors": ["src/hstd/stdlib/Str.hpp:48-57", "src/hstd/stdlib/Slice.hpp", "src/haxorg/sem/SemConvert.cpp:806-821"]}
{"id": "C82", "title": "Conversion gives each construct its meaning", "statement": "The converter turns each parsed construct into the node that stands for it with its contents in order: headings with level, title, keyword, priority, tags and completion, list items with bullet and checkbox, links with target and description, tables with rows and cells, code with its lines and language, quotes, centred text, footnotes, times, marks and words.", "quantifier": "all parse trees of the described forms, of any size and nesting", "why_tests_cant": "each form is converted by its own function and they call one another; nestings of forms are not enumerable", "anchors": ["src/haxorg/sem/SemConvert.cpp: convertSubtree, convertListItem, convertLink, convertTable, convertBlockCode, convertParagraph, flatConvertAttached, \u2026"]}
{"id": "C83", "title": "Commands are attached to the statement they stand before", "statement": "When statements are converted, a caption, name or attribute line is attached to the next statement that can have one (to the link when that is a lone link) and a table formula to the statement before it, in order; taking the attached ones out again gives every converted statement once, in the order of the document.", "quantifier": "all lists of statements, whatever they are, in documents, headings, quotes", "why_tests_cant": "depends on runs of commands, on what comes between, on the end of the list", "anchors": ["src/haxorg/sem/SemConvert.cpp: flatConvertAttached, convertSubtree, convertStmtList, toDocument"]}
{"id": "C84", "title": "Conversion keeps the text and the outline", "statement": "The words of the converted document, in reading order, are the words of the parse tree, and the headings with their titles and levels are nested as in the parse tree.", "quantifier": "all parse trees of the described forms, of any size and nesting", "why_tests_cant": "a dropped or repeated child shows only in the construct that drops it", "anchors": ["src/haxorg/sem/SemConvert.cpp: all convert functions"]}
{"id": "C85", "title": "Every parsed document can be converted", "statement": "A document that has been parsed is converted; what cannot be converted becomes an error node in its place and not an exception.", "quantifier": "all documents", "why_tests_cant": "needs inputs nobody writes on purpose", "anchors": ["src/haxorg/sem/SemConvert.cpp: convertTable, convertBlockExample, convertSubtreeCompletion, convertCmdName, convertCmdStartup, \u2026", "src/haxorg/lexbase/NodeSpec.hpp"]}
{"id": "C86", "title": "Carrying out the edits between two trees gives the second tree", "statement": "The list of edits that getEdits returns for two trees is complete: inserting, deleting, moving and updating what it names, and leaving the rest in place, turns the first tree into the second.", "quantifier": "all pairs of trees of any shape and size, all equality callbacks", "why_tests_cant": "the matching of children depends on the counts of equal siblings on both sides and on what was matched before; small examples do not show a lost or doubled child", "anchors": ["src/hstd/ext/astdiff/astdiff_eager.cpp: getEdits, diffSubnodes, findBestMatch, recurseMatchCandidate", "src/hstd/ext/astdiff/astdiff_eager.hpp"]}
{"id": "C87", "title": "No edits mean equal trees, and equal trees give no edits", "statement": "getEdits returns an empty list exactly when the two trees have equal values at the same places.", "quantifier": "all pairs of trees", "why_tests_cant": "equal trees in tests have no repeated siblings", "anchors": ["src/hstd/ext/astdiff/astdiff_eager.cpp: findBestMatch:84-159"]}
{"id": "C88", "title": "Nothing is removed and added again under the same node", "statement": "Among the children of a node and of its counterpart getEdits never deletes a child and inserts one with an equal value; the value of a node that keeps its place in the tree is updated only at the root.", "quantifier": "all pairs of trees, all nodes that are kept", "why_tests_cant": "needs several equal siblings, some of them matched before", "anchors": ["src/hstd/ext/astdiff/astdiff_eager.cpp: shouldPreferInsert, countUnprocessedMatching, findBestMatch"]}
{"id": "C89", "title": "Matching two trees ends and gives a one-to-one matching of nodes that may be matched", "statement": "Comparing two trees ends without reading outside of its tables, whatever the trees, callbacks and thresholds are; getMapped then gives each node of one tree at most one partner in the other, the partner's partner is the node itself, and isMatchingAllowed holds for every pair.", "quantifier": "all pairs of trees, all callbacks, all thresholds", "why_tests_cant": "the matcher of Zhang and Shasha fills two tables and reads its own decisions back from them; a wrong place shows for special shapes only", "anchors": ["src/hstd/ext/astdiff/astdiff.hpp:438-600,620-735", "src/hstd/ext/astdiff/astdiff.cpp:131-402"]}
{"id": "C90", "title": "The list of changes accounts for every node", "statement": "getAllChanges has, for every node of the first tree without partner, one Delete; for every node of the second tree without partner, one Insert with its parent and place; for every pair with another value or under other parents, one change that says so; at most one change for a node, and none that is not so. Siblings that are not reported as moved are in the same order in both trees.", "quantifier": "all pairs of trees, all callbacks, all thresholds", "why_tests_cant": "depends on the order in which nodes are visited and on shifts that earlier nodes leave behind; orders of siblings are not enumerable", "anchors": ["src/hstd/ext/astdiff/astdiff.hpp:310-330,444-525", "src/hstd/ext/astdiff/astdiff.cpp:90-128"]}
{"id": "C91", "title": "No changes mean equal trees", "statement": "When getAllChanges returns nothing, the trees have the same shape and at every place values that may be matched and count as equal.", "quantifier": "all pairs of trees, all callbacks, all thresholds", "why_tests_cant": "a missed change is invisible in the output, so only the absence of such pairs settles it", "anchors": ["src/hstd/ext/astdiff/astdiff.hpp:507-525", "src/hstd/ext/astdiff/astdiff.cpp:90-128"]}
{"id": "C92", "title": "Equal trees give no changes", "statement": "Comparing a tree with an equal tree gives no changes.", "quantifier": "all pairs of trees that are equal by the callbacks", "why_tests_cant": "the phase that finds the match depends on height and size", "anchors": ["src/hstd/ext/astdiff/astdiff.hpp:528-540", "src/hstd/ext/astdiff/astdiff.cpp:151-236"]}
{"id": "C93", "title": "Comparison of documents sees every change of text", "statement": "Two documents for which SemNodeDiff reports no changes have the same nodes and the same text.", "quantifier": "all pairs of documents", "why_tests_cant": "documents differ in fields that the comparison may not visit", "anchors": ["src/haxorg/sem/SemAstDiff.cpp:9-38,75-116", "src/haxorg/sem/SemAstDiff.hpp"]}
{"id": "C94", "title": "Edits between immutable documents fit the matching", "statement": "ImmNodeDiff::getEdits keeps or replaces exactly the nodes of the second document that have a partner, inserts the others and deletes the nodes of the first document without partner.", "quantifier": "all pairs of documents", "why_tests_cant": "right when matched nodes have the same numbers, as in small examples", "anchors": ["src/haxorg/sem/SemAstDiff.cpp:118-164", "src/hstd/ext/astdiff/astdiff.hpp:545-551"]}
{"id": "C95", "title": "A document of headings and paragraphs is read as it is meant", "statement": "Parsing the text of a document that consists of headings and paragraphs of words, some of them bold, italic, underlined or struck, gives the tree of that document: every heading with its level and title below the last heading before it with fewer stars, every paragraph with its words, blanks, line ends and marks, and nothing else.", "quantifier": "all such documents: any number and nesting of headings, any number of paragraphs, lines and empty lines, all words of letters", "why_tests_cant": "a reader's expectation about whole documents crosses all five stages; every test fixes one document", "anchors": ["src/haxorg/parse/OrgTokenizer.cpp", "src/haxorg/parse/OrgParser.cpp:590-640,1326-1338,1904-2140,2600-2700", "src/haxorg/sem/SemConvert.cpp", "src/haxorg/sem/SemOrgApi.cpp"]}
{"id": "C96", "title": "A keyword at the start of a heading is its keyword", "statement": "A heading that begins with a keyword such as TODO or DONE has that keyword as its TODO state, and the title without it.", "quantifier": "all headings with a keyword", "why_tests_cant": "whether the word is taken depends on what follows it; tests with a priority pass", "anchors": ["src/haxorg/parse/OrgParser.cpp:1904-1911", "src/haxorg/sem/SemConvert.cpp: convertSubtree"]}
{"id": "C97", "title": "A block without alternatives is printed as it is built", "statement": "Whatever the margins and costs of the options, laying out a block made of texts, lines and stacks and printing any of the layouts found gives exactly the lines of the block: parts of a line one after the other, parts of a stack under each other, a stack inside a line indented to the column where it begins.", "quantifier": "all blocks of texts, lines and stacks up to 2^28 characters, all sensible options", "why_tests_cant": "the layouts are built from intersected cost functions; that they all print the same text does not show in one block", "anchors": ["src/hstd/ext/textlayouter.cpp:250-530,640-760,1060-1139", "src/hstd/ext/textlayouter.hpp:361-365"]}
{"id": "C98", "title": "A document of headings and paragraphs is formatted as it was meant", "statement": "Formatting the tree of a document of headings and paragraphs of words gives the text of that document, with one empty line after each heading that has something below it.", "quantifier": "all such documents, all sensible layout options", "why_tests_cant": "the output crosses the formatter and the layout engine, and every test fixes one document", "anchors": ["src/haxorg/sem/SemOrgFormat.cpp", "src/haxorg/sem/SemOrgFormat.hpp:49-53", "src/hstd/ext/textlayouter.cpp:1096-1139"]}
{"id": "C99", "title": "Formatting and reading again gives the same document", "statement": "Parsing a formatted document gives the document that was formatted.", "quantifier": "all documents of headings and paragraphs", "why_tests_cant": "needs all stages in both directions; a test fixes one document", "anchors": ["src/haxorg/sem/SemOrgFormat.cpp", "src/haxorg/api/SemBaseApi.cpp:139-141", "src/haxorg/parse/OrgParser.cpp", "src/haxorg/sem/SemConvert.cpp"]}
{"id": "C100", "title": "Formatting keeps the words of a document", "statement": "Every word of a document is in its formatted text, in the same order.", "quantifier": "all documents that can be formatted", "why_tests_cant": "each kind of node has a writing function of its own, and the loss of a word raises no error", "anchors": ["src/haxorg/sem/SemOrgFormat.cpp", "src/hstd/ext/textlayouter.cpp:1096-1139"]}
{"id": "C101", "title": "Formatting is stable", "statement": "Formatting a document, reading the result and formatting again gives the same text.", "quantifier": "all documents", "why_tests_cant": "one more blank line each time is seen only by formatting twice", "anchors": ["src/haxorg/sem/SemOrgFormat.cpp"]}
{"id": "C102", "title": "Every construct is written in its syntax", "statement": "Formatting a document writes each construct with its own syntax, with all it says: marks, links, macros, dates, tags, targets, lists and checkboxes, tables, blocks with their arguments, commands, headings with keyword, priority, completion, tags and dates; nested constructs are indented to the column where they begin.", "quantifier": "all trees of these constructs, to any depth, all sensible layout options", "why_tests_cant": "each construct can stand in every other, and tests fix one nesting", "anchors": ["src/haxorg/sem/SemOrgFormat.cpp", "src/hstd/ext/textlayouter.cpp:1096-1139"]}
{"id": "C103", "title": "Slices of tables", "statement": "`x[a:b,c:d]` after a variable's value selects, of each dimension, the elements from the first to the last position, counted from the end when negative; a position outside its dimension is an error.", "quantifier": "all rectangular arrays of any depth, all spans", "why_tests_cant": "positions come from both ends and in several dimensions; tests slice one table", "anchors": ["src/haxorg/api/EvalContext.cpp:25-86"]}
{"id": "C104", "title": "Variables of code blocks", "statement": "A code block is evaluated with the lines it has, and with every variable that its `:var` attributes or the call's arguments set, the last setting counting: the value of the named table or result, or the text itself when nothing has that name.", "quantifier": "all documents, all evaluators, every question of a run", "why_tests_cant": "the value depends on what was evaluated before", "anchors": ["src/haxorg/api/EvalContext.cpp:121-206", "src/haxorg/api/EvalContext.cpp:267-389"]}
{"id": "C105", "title": "Options of results", "statement": "The words after `:results` decide type, format and handling of the result, the last word about each counting, with the documented defaults.", "quantifier": "all attribute lists of a block and of the lines attached to it", "why_tests_cant": "combinations of words and places are too many", "anchors": ["src/haxorg/api/EvalContext.cpp:304-354"]}
{"id": "C106", "title": "Order of evaluation", "statement": "Evaluating a document asks the evaluator once for each source block, in document order, and for each call with a known name; each question is about the block at that place or of the called name.", "quantifier": "all documents, all evaluators (also ones that answer by what was asked before)", "why_tests_cant": "order and completeness over nested blocks, results and calls", "anchors": ["src/haxorg/api/EvalContext.cpp:215-248", "src/haxorg/api/EvalContext.cpp:461-542"]}
{"id": "C107", "title": "Results are stored in the document", "statement": "After the evaluation each block holds its results, handled as `:results` says, and the rest of the document is unchanged.", "quantifier": "all documents, all evaluators", "why_tests_cant": "tests look at the first block only", "anchors": ["src/haxorg/api/EvalContext.cpp:392-459", "src/haxorg/api/EvalContext.cpp:461-542", "src/haxorg/sem/ImmOrgStore.cpp:305-318", "src/haxorg/sem/ImmOrgStore.cpp:396-446"]}
{"id": "C108", "title": "JSON text means the value", "statement": "The text written for a JSON value, with any width and indentation, is JSON text that means this value, the order of fields aside.", "quantifier": "all JSON values, all options, whatever sizes are computed for the values", "why_tests_cant": "which of two ways of writing is used depends on sizes, so that any part of a value can be written in either", "anchors": ["src/hstd/stdlib/Json.cpp:16-107"]}
{"id": "C109", "title": "Removing fields from JSON", "statement": "Filtering a JSON value removes the fields of the given names wherever they are, with what they contain, and nothing else.", "quantifier": "all JSON values, all lists of names", "why_tests_cant": "depth is unbounded; a loop that only looks at objects or only at arrays passes small tests", "anchors": ["src/hstd/stdlib/Json.cpp:109-123"]}
{"id": "C110", "title": "Values survive JSON", "statement": "Reading the JSON value written for a C++ value gives this value again: numbers, text, enumerations, optionals, vectors, sets, pairs, slices, maps and described records; unknown fields are ignored, missing ones keep the value of a new record.", "quantifier": "all types built from these, to any depth, all their values", "why_tests_cant": "types are built from each other by templates, each instance is another function", "anchors": ["src/hstd/stdlib/JsonSerde.hpp", "src/hstd/stdlib/OptSerde.hpp", "src/hstd/stdlib/MapSerde.hpp", "src/hstd/stdlib/SetSerde.hpp", "src/hstd/stdlib/VariantSerde.hpp"]}
{"id": "C111", "title": "Demoting a heading", "statement": "Demoting a heading makes it and all headings below it one level deeper; if the heading before it is not deeper than it was, it becomes the last part of that one; the rest of the document is unchanged and stays in order.", "quantifier": "all documents, all headings in them", "why_tests_cant": "which node is meant is found by comparing ids, and equal nodes share one; tests use distinct headings without text", "anchors": ["src/haxorg/imm/ImmOrgEdit.cpp:82-208", "src/haxorg/imm/ImmOrgStore.cpp:296-460"]}
{"id": "C112", "title": "Wrapping text", "statement": "Wrapping words into lines of a given width keeps all words in order; no line with more than one word is wider than asked, a line ends only where the next word does not fit, and no division has fewer lines; justified lines have exactly the width, with gaps as equal as possible.", "quantifier": "all lists of words, all widths, both modes", "why_tests_cant": "the place of every break depends on all words before it", "anchors": ["src/hstd/stdlib/strutils.cpp:328-402"]}
{"id": "C113", "title": "Tables of text", "statement": "A table of cells is written so that every line of every cell stands where its row and column begin, filled up to the width of the widest line of its column, with separators between columns and drawn lines between rows.", "quantifier": "all tables, rows of any lengths, cells of any number of lines, all separators", "why_tests_cant": "the place of a cell depends on all cells", "anchors": ["src/hstd/stdlib/strutils.cpp:624-690"]}
{"id": "C114", "title": "Numbers in groups of digits", "statement": "A number written in binary, octal, hexadecimal or decimal form reads back as this number, has at least the number of digits asked for and no other leading zeros, and its digits are in groups of four (not in decimal form); different numbers are written differently.", "quantifier": "all 64-bit values, all formats, all paddings", "why_tests_cant": "2^64 values; padding and grouping interact", "anchors": ["src/hstd/stdlib/strutils.cpp:565-622"]}
{"id": "C115", "title": "All places of a node are found", "statement": "Asking for the paths of a stored node gives every place of the imported documents where it is found, each exactly once; after edits, the places in the new version.", "quantifier": "all documents, all sequences of imports and edits, all nodes, any order of the hash map", "why_tests_cant": "equal nodes share an id, so a node may have any number of parents and places; links are kept up to date by every edit before", "anchors": ["src/haxorg/imm/ImmOrg.cpp:500-508,540-580,1151-1216", "src/haxorg/imm/ImmOrgStore.cpp:57-98,463-475"]}
{"id": "C116", "title": "Nodes are found by their keys", "statement": "After any imports and edits, a name, heading id, custom id or footnote leads to the node of the present version that has it, and to none if no node has it any more; the radio targets listed for a word are those that start with it; a hash tag leads to the heading that defines it. No edit fails because of this bookkeeping.", "quantifier": "all sequences of imports and edits, all nodes and keys", "why_tests_cant": "the maps are changed by every edit before; what is erased for one node may belong to another", "anchors": ["src/haxorg/imm/ImmOrg.cpp:609-754", "src/haxorg/imm/ImmOrg.hpp:262-345", "src/haxorg/imm/ImmOrgStore.cpp:81-82,474"]}
{"id": "C117", "title": "Printed comparisons", "statement": "Printing a comparison of two sequences side by side shows a line for every pair of aligned elements, with the mark of the edit and the text of the element on its side; only lines deep in a run of unchanged ones may be left out, and every changed line is in the printed range. Grouped output has every removed, kept and inserted element in order.", "quantifier": "all comparisons, all texts, all settings", "why_tests_cant": "what is left out depends on the whole run before; the text of a line is looked up by a number from another list", "anchors": ["src/hstd/stdlib/diffs.hpp:457-572", "src/hstd/stdlib/diffs.cpp:396-644"]}
{"id": "C118", "title": "Reports of errors", "statement": "A report of an error names the line and column of its place, shows lines of the source with their own numbers, and writes every label once: below its line, or below the last of its lines, at the column it points to. Sources appear in the order in which labels mention them, and labels inside the text never make the report fail.", "quantifier": "all sources, all lists of labels of one or several sources, all settings, any order among equal labels", "why_tests_cant": "positions, lines and labels interact; tests compare a few whole reports", "anchors": ["src/hstd/ext/error_write.cpp:194-257,476-492,672-779,857-1119,1267-1415", "src/hstd/ext/error_write.hpp:30-270"]}
{"id": "C119", "title": "Times", "statement": "The text of a date with or without a clock and zone is read as the time it spells, and a text that is no time is refused. Writing a time with its repeaters and warning gives text that is read as the same time. Unix timestamps and differences of times count the seconds of the calendar; timestamps that do not fit into 32 bits are refused. The fields of a time up to its alignment say which time it is.", "quantifier": "all times of all years, all digit texts, all repeaters", "why_tests_cant": "dates interact with the calendar and with seven formats tried in turn; tests use a few dates without zones", "anchors": ["src/hstd/stdlib/Time.cpp:6-118", "src/hstd/stdlib/Time.hpp:16-60", "src/haxorg/sem/SemConvert.cpp:161-222,1028-1130", "src/haxorg/sem/SemOrgFormat.cpp:912-958", "src/haxorg/sem/SemOrgSharedApi.cpp:1192-1198"]}
{"id": "C120", "title": "Properties of headings", "statement": "A property of a heading is written as one line of the drawer, and this line is read as the same property; whatever such a line is read as can be written and read again unchanged. Names are recognised regardless of case, dashes and underscores; the value has no spaces at its ends.", "quantifier": "all properties of the 27 kinds, all names and values, all lines", "why_tests_cant": "the same name is interpreted by the lexer, the converter and the writer, each with its own list of names", "anchors": ["src/haxorg/parse/base_token_tokenize.cpp:1009-1026,1071-1145", "src/haxorg/parse/OrgParser.cpp:1833-1858", "src/haxorg/sem/SemConvert.cpp:151-158,234-269,662-905", "src/haxorg/sem/SemOrgFormat.cpp:1201-1404", "src/haxorg/sem/SemOrgSharedTypes.hpp:1066-1380"]}
{"id": "C121", "title": "Entries of logbooks", "statement": "An entry of a logbook - a clock, a change of state, of priority or of tags, a refiling, a note - is read from its line, whatever the spaces and capitals, with all of its description, and is written as this line again. An item that is no such entry is kept whole. No item of a logbook makes the reading of the document fail, and what was read can be written.", "quantifier": "all entries, all names, times, tags and targets, all descriptions, all items", "why_tests_cant": "the words of the line, of the description and names in capitals are searched by the same loops; tests have one line of most kinds", "anchors": ["src/haxorg/sem/SemConvert.cpp:347-595", "src/haxorg/sem/SemOrgFormat.cpp:145-161,1407-1548", "src/haxorg/sem/SemOrgSharedTypes.hpp:491-612"]}
{"id": "C122", "title": "Settings of a document", "statement": "Each item name:value of a line #+options: sets the setting of its name, the last one winning, and nothing else; what is not known is reported. The word of #+startup: sets what is seen at first. Reading such a line never ends the reading of the document. Writing the document writes its settings, and reading them again gives the same settings.", "quantifier": "all lines, all sequences of items, all values, all documents", "why_tests_cant": "thirty settings, any number of items in any order, repeated or not; the tests look at a few of the settings in one line", "anchors": ["src/haxorg/sem/SemConvert.cpp:145-147,2749-2889,2927-2956", "src/haxorg/sem/SemOrgFormat.cpp:176-330", "src/haxorg/sem/SemOrgSharedTypes.hpp:872-1025"]}
{"id": "C123", "title": "What is attached to a statement", "statement": "Asked for captions, names or the attributes for an exporter, a statement gives exactly the lines of this kind that are attached to it, in their order, however the kind is spelt, and without a kind all of them; the texts of captions, the names and the attributes of a list are those of these lines. A list with a header in an item is one of descriptions; a list is numbered if its items are.", "quantifier": "all statements, all lines attached to them, all kinds", "why_tests_cant": "any number of lines of any kinds in any order; the tests look at single lines", "anchors": ["src/haxorg/sem/SemOrgSharedApi.cpp:589-663,719-751", "src/haxorg/sem/SemConvert.cpp:1319-1321,2293-2300"]}
{"id": "C124", "title": "Editing of lists, and creation times", "statement": "The index of a header is that of the first item of the list with this header, and -1 if there is none. Setting the contents of an item changes nothing else; an item inserted at an index stands there, between the items as they were, and every other index is refused. The one node of a document is the one inside of all its wrappers, if there is one. The creation time of a paragraph is the first time in its lead, that of a heading its property or, without it, the time in its title. Going through a tree with paths gives every node once, with the nodes above it.", "quantifier": "all lists, items, headers and indices, all paragraphs and headings, all trees", "why_tests_cant": "any shape and any index; only some of these functions have tests, with one or two items", "anchors": ["src/haxorg/api/SemBaseApi.cpp:213-230,355-417", "src/haxorg/sem/SemOrgSharedApi.cpp:285-404,457-491,919"]}
{"id": "C125", "title": "Column views", "statement": "A line #+columns: is read as its columns, each with its width, property, title and summary; a line that is none is reported. Each summary of the manual is read as what it is. The columns of a document are written as a line that is read as the same columns.", "quantifier": "all lists of columns, all widths, names, titles and summaries", "why_tests_cant": "four optional parts in each of any number of columns; the one test has one line and does not look at what was read", "anchors": ["src/haxorg/sem/SemConvert.cpp:2302-2408", "src/haxorg/sem/SemOrgFormat.cpp:204-270,755-758", "src/haxorg/sem/SemOrgSharedTypes.hpp:767-820"]}
{"id": "C126", "title": "Windows into vectors, and partitions", "statement": "Moving the start or the end of a window by a number of elements adds or drops these elements, and never goes beyond the end of the vector; a window of fixed size slides. Partitioning a vector gives windows that show all of it in its order, each with neighbours of one value, those side by side with different values.", "quantifier": "all vectors, windows, steps and callbacks", "why_tests_cant": "windows of any place and size, steps of any size, any sequence of values", "anchors": ["src/hstd/stdlib/Span.hpp:31-109", "src/hstd/stdlib/algorithms.hpp:73-94"]}
{"id": "C127", "title": "Writing of XML", "statement": "What is written for a tree of nodes is XML that means this tree, with any indentation: any text of an element and any value of an attribute means itself, comments end where they should, CDATA sections and raw data are kept. Setting an attribute gives it its value and leaves the others alone.", "quantifier": "all trees, all texts and values, all indentations", "why_tests_cant": "any character can stand in any text; the tests have no such text", "anchors": ["src/hstd/stdlib/Xml.cpp:5-135"]}

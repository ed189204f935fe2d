{"id": "C01", "title": "Leximited strings are self-delimiting", "statement": "Appending any text after the leximited encoding of a string never makes the encoding ambiguous: a reader that knows only the format recovers exactly the original string and exactly the remaining text. Hence no leximited encoding is a proper prefix of another, and concatenations of leximited pieces (as used in mangled C++ names) decode uniquely.", "quantifier": "every byte string of every length (below 2^32) and every continuation text", "why_tests_cant": "The header is recursive in the length (lengths of lengths); ambiguity would only show for particular lengths/contents, infinitely many of which exist.", "anchors": ["src/ulam/UlamUtil.cpp:ToLeximited", "src/ulam/UlamUtil.cpp:ToLeximitedHeader"]}
{"id": "C02", "title": "Leximited numbers are injective and decodable", "statement": "Every signed and unsigned 32- and 64-bit number has a leximited encoding from which the number (including the most negative one, written n10) can be recovered whatever text follows; two different numbers never share an encoding, and zero and the most negative number do not collide.", "quantifier": "every s32, u32, s64 and u64 value, and every continuation text", "why_tests_cant": "2^64 values and the S_MIN special case; sampled tests cannot exclude a collision.", "anchors": ["src/ulam/UlamUtil.cpp:ToLeximitedNumber", "src/ulam/UlamUtil.cpp:ToLeximitedNumber64"]}
{"id": "C03", "title": "HexEscape is invertible and emits only visible ASCII", "statement": "The escaped form of a byte string contains only printable non-space ASCII characters, and unescaping %xx recovers the original string exactly, so two different byte strings never escape to the same text.", "quantifier": "every byte string", "why_tests_cant": "256^n strings; the interesting ones contain %, digits after % and control bytes in arbitrary positions.", "anchors": ["src/ulam/UlamUtil.cpp:HexEscape"]}
{"id": "C04", "title": "64-bit constants are emitted exactly", "statement": "The text generated in C++ code for a 64-bit constant, HexU64(0xHI, 0xLO), denotes exactly the 64-bit pattern of the constant, for signed and unsigned constants.", "quantifier": "every s64 and u64 value", "why_tests_cant": "2^64 values; an error in one half or in padding only shows for specific values.", "anchors": ["src/ulam/UlamUtil.cpp:ToSignedDecimal", "src/ulam/UlamUtil.cpp:ToUnsignedDecimal"]}
{"id": "C05", "title": "Integer literals convert exactly or are rejected", "statement": "Converting a digit string in any supported radix (decimal, 0x hex, 0b binary, 0 octal, optional u suffix) to 64 bits either yields precisely the mathematical value of the digits or reports an error, and it reports 'too large' precisely when the value does not fit in 64 bits; a negative sign yields the exact negation or an error.", "quantifier": "every digit string of every length in every radix, with optional sign and suffix, for the signed (-64) and unsigned (64) conversions", "why_tests_cant": "Overflow detection by division must be right at every digit position and for every prefix; only boundary values of unbounded strings would reveal an error.", "anchors": ["src/ulam/strto64.cpp:Strto64::parseDigits", "src/ulam/strto64.cpp:Strto64::checkRange", "src/ulam/strto64.cpp:strto64"]}
{"id": "C06", "title": "Sized literal conversion enforces the declared size", "statement": "When a literal is converted for a signed size of n bits (n < 64) the conversion succeeds exactly for values representable in n bits.", "quantifier": "every n from 1 to 63 and every digit string", "why_tests_cant": "An off-by-one in the size computation shows only for values in a narrow band near each of the 63 limits.", "anchors": ["src/ulam/strto64.cpp:Strto64::checkRange"]}
{"id": "C07", "title": "String interning is stable, injective and lossless", "statement": "After any sequence of interning requests, equal strings got equal indexes, different strings got different indexes, every index handed out still returns the string it was given for, indexes are never 0 and never change later.", "quantifier": "every sequence of intern requests (any length, any strings)", "why_tests_cant": "The property is about all histories; a test can only run particular ones.", "anchors": ["src/ulam/StringPool.cpp:StringPool::getIndexForDataString", "src/ulam/StringPool.cpp:StringPool::getDataAsString"]}
{"id": "C08", "title": "User string table: index points at length, bytes, NUL", "statement": "For every set of interned user strings, the generated C++ string table, once read by a C++ compiler, contains at each emitted string index the length byte of that string, then its bytes, then a 0 byte; no two entries overlap and the total table length is the running total the generator declares.", "quantifier": "every history of user-string registrations, any string contents up to 255 bytes (including quotes, backslashes, question marks, NULs and digits after octal escapes)", "why_tests_cant": "Contents-dependent escaping (octal followed by digits, trigraphs) combined with running offsets over unboundedly many strings.", "anchors": ["src/ulam/StringPoolUser.cpp:generateUserStringPoolEntries", "src/ulam/StringPoolUser.cpp:writeDoubleQuotedString", "src/ulam/StringPoolUser.cpp:getIndexForDataString"]}
{"id": "C09", "title": "Diagnostic/quoted rendering of strings is unambiguous", "statement": "Two different user strings are never rendered by the double-quoted formatting routine as the same text.", "quantifier": "every pair of byte strings", "why_tests_cant": "Ambiguity arises only for particular byte/digit juxtapositions.", "anchors": ["src/ulam/StringPoolUser.cpp:formatDoubleQuotedString"]}
{"id": "C10", "title": "Source positions count lines and columns correctly", "statement": "After reading any text, the reported line is 1 plus the number of newlines read and the reported byte column is the number of bytes read since the last newline.", "quantifier": "every text (any length, any bytes)", "why_tests_cant": "16-bit counters wrap; only inputs beyond any test size show it.", "anchors": ["src/ulam/Locator.cpp:Locator::updateLineByteNo", "include/Locator.h"]}
{"id": "C11", "title": "Source stream delivers exactly the nested file contents", "statement": "Reading a source stream that loads files at arbitrary points delivers, in order, exactly the bytes of the outer file up to the load, then the whole loaded file, then the rest of the outer file; one pushed-back byte is delivered again exactly once and positions are restored.", "quantifier": "every finite tree of files, every load point, every interleaving of read and single push-back", "why_tests_cant": "Unbounded nesting and interleavings of push-back with end-of-file of an inner file.", "anchors": ["src/ulam/SourceStream.cpp:SourceStream::read", "src/ulam/SourceStream.cpp:SourceStream::unread", "src/ulam/SourceStream.cpp:SourceStream::push"]}
{"id": "C12", "title": "Operators are tokenized by longest match", "statement": "From any position, the operator token produced is the longest operator of the language that is a prefix of the input, and the characters after it are left unread.", "quantifier": "every input text starting with an operator character", "why_tests_cant": "All continuations of each operator prefix, including end of input.", "anchors": ["src/ulam/Lexer.cpp:Lexer::getNextToken", "include/Token.inc"]}
{"id": "C13", "title": "Comments and white space do not change the token sequence", "statement": "Inserting a block or line comment between two tokens, where white space is allowed, does not change the sequence of tokens produced.", "quantifier": "every token context and every comment text", "why_tests_cant": "Comment adjacency (comment directly after comment, slash after comment) is an unbounded family of contexts.", "anchors": ["src/ulam/Lexer.cpp:Lexer::eatComment", "src/ulam/Lexer.cpp:Lexer::getNextToken"]}
{"id": "C14", "title": "Identifiers and keywords are classified uniquely", "statement": "Every identifier spelling maps to exactly one kind: a reserved word maps to its keyword and no two keywords share a spelling; any other word starting with a capital is a type identifier, with a lower-case letter an ordinary identifier.", "quantifier": "every word over letters, digits and underscore", "why_tests_cant": "Infinite set of words against the whole keyword table.", "anchors": ["src/ulam/Lexer.cpp:Lexer::makeWordToken", "src/ulam/Token.cpp:Token::getTokenTypeFromString", "include/Token.inc"]}
{"id": "C15", "title": "Stored fields read back exactly", "statement": "Writing a value of width w at bit position p of an atom and reading width w at p returns the value modulo 2^w, for fields up to 64 bits anywhere within the 96-bit atom.", "quantifier": "every position, width and value with the field inside the atom, and every previous atom contents", "why_tests_cant": "96*64 placements times 2^96 contents times 2^64 values.", "anchors": ["src/ulam/UlamValue.cpp:UlamValue::putData", "src/ulam/UlamValue.cpp:UlamValue::getData", "src/ulam/UlamValue.cpp:UlamValue::putDataLong", "src/ulam/UlamValue.cpp:UlamValue::getDataLong"]}
{"id": "C16", "title": "Writing one field leaves all other bits of the atom alone", "statement": "Writing a field changes no bit outside the field, so two disjoint fields never disturb each other.", "quantifier": "every pair of disjoint fields, all values, all previous contents", "why_tests_cant": "Same explosion as C15, with pairs.", "anchors": ["src/ulam/UlamValue.cpp:UlamValue::putData", "src/ulam/UlamValue.cpp:UlamValue::putDataIntoAtom"]}
{"id": "C17", "title": "Packed arrays: item i is where indexing says it is", "statement": "In a packed array value, storing item i and loading item j returns the stored item when i=j and the old item otherwise; the item order in the packed representation is first item in the most significant bits.", "quantifier": "every item width, array length and index fitting the packed limit, all contents", "why_tests_cant": "Combinatorial in width, length, index and contents.", "anchors": ["src/ulam/UlamValue.cpp:UlamValue::getPackedArrayDataFromAtom", "src/ulam/UlamValue.cpp:UlamValue::putPackedArrayDataIntoAtom", "src/ulam/UlamValue.cpp:UlamValue::makeScalarPtr"]}
{"id": "C18", "title": "Default array values replicate the item default", "statement": "The packed default value built for an array contains the scalar default in every item.", "quantifier": "every item bit size, array size and default value with the array at most 64 bits", "why_tests_cant": "Shift arithmetic depends on sizes and positions; 64-bit contents.", "anchors": ["src/ulam/CompilerState.cpp:getDefaultAsPackedArray"]}
{"id": "C19", "title": "Calls and returns restore the caller's frame", "statement": "After any balanced sequence of call, local stores inside the callee and return, the caller's frame pointer, its local slots and its pending arguments are unchanged.", "quantifier": "every sequence of frame operations (any nesting depth)", "why_tests_cant": "Property over all histories of stack operations.", "anchors": ["src/ulam/CallStack.cpp:CallStack::addFrameSlots", "src/ulam/CallStack.cpp:CallStack::returnFrame", "src/ulam/CallStack.cpp:CallStack::storeUlamValueInSlot"]}
{"id": "C20", "title": "Frame slots behave as independent variables", "statement": "Storing to a frame slot and loading it returns the value; storing to one slot changes no other slot of this or any other frame.", "quantifier": "every stack state, every pair of slots in range (negative parameters, positive locals)", "why_tests_cant": "All stack heights and slot combinations; signed/unsigned index arithmetic.", "anchors": ["src/ulam/CallStack.cpp:CallStack::loadUlamValueFromSlot", "src/ulam/CallStack.cpp:CallStack::storeUlamValueInSlot"]}
{"id": "C21", "title": "Event-window coordinates and site numbers correspond one to one", "statement": "Converting a coordinate in the window to a site index and back returns the coordinate, and conversely for every site index.", "quantifier": "every coordinate with |x|,|y| <= 4 and every index 0..80", "why_tests_cant": "Finite but stated for all of them; index arithmetic mixes signed 8-bit and unsigned values.", "anchors": ["src/ulam/UEventWindow.cpp:Coord::convertCoordToIndex", "src/ulam/UEventWindow.cpp:convertIndexToCoord"]}
{"id": "C22", "title": "The event window accepts exactly the sites at Manhattan distance at most 4", "statement": "Bounds checking of an event-window access accepts a coordinate exactly when |x|+|y| <= 4, and a store to an accepted live site is seen by the next load of that site and of no other.", "quantifier": "every coordinate and every sequence of stores and loads", "why_tests_cant": "All histories of accesses, all 2^16 coordinates.", "anchors": ["src/ulam/UEventWindow.cpp:isValidSite", "src/ulam/UEventWindow.cpp:UEventWindow::storeAtomIntoSite", "src/ulam/UEventWindow.cpp:UEventWindow::loadAtomFromSite"]}
{"id": "C23", "title": "Casts the compiler calls safe never change the value", "statement": "Whenever an implicit ('safe') cast between two primitive types is allowed, every value of the source type has the same mathematical value in the destination type.", "quantifier": "every pair of primitive types, every pair of bit sizes, every value of the source type", "why_tests_cant": "Sizes x types x values; a wrong inequality shows only at limit values.", "anchors": ["src/ulam/UlamTypePrimitiveInt.cpp:safeCast", "src/ulam/UlamTypePrimitiveUnsigned.cpp:safeCast", "src/ulam/UlamTypePrimitiveUnary.cpp:safeCast", "src/ulam/UlamTypePrimitiveBits.cpp:safeCast", "src/ulam/UlamTypePrimitiveBool.cpp:safeCast"]}
{"id": "C24", "title": "maxof and minof are the exact limits of each type", "statement": "For every primitive type and size, maxof and minof are the largest and smallest values the type can represent.", "quantifier": "every primitive type and bit size 1..64", "why_tests_cant": "All sizes including 31/32/33/63/64 word boundaries.", "anchors": ["src/ulam/UlamTypePrimitiveInt.cpp", "src/ulam/UlamTypePrimitiveUnsigned.cpp", "src/ulam/UlamTypePrimitiveUnary.cpp"]}
{"id": "C25", "title": "Result types of arithmetic hold every result", "statement": "The result type chosen for +, -, *, / and % of two integer operands can represent every mathematical result, as long as the result size is not capped by the word size.", "quantifier": "every pair of operand types and sizes, and every pair of operand values", "why_tests_cant": "Sizes x values; only extreme operand values expose a too-narrow type.", "anchors": ["src/ulam/NodeBinaryOpArithAdd.cpp:resultBitsize", "src/ulam/NodeBinaryOpArithMultiply.cpp:resultBitsize", "src/ulam/NodeBinaryOpArithDivide.cpp", "src/ulam/NodeBinaryOpArithRemainder.cpp", "src/ulam/NodeBinaryOp.cpp:resultBitsizeCalc"]}
{"id": "C26", "title": "Shift result sizes are valid type sizes", "statement": "The size computed for the result type of a left shift is at least the left operand's size and between 1 and the word size, for all operand sizes.", "quantifier": "every left size, right size and word size accepted by the compiler", "why_tests_cant": "Width arithmetic overflows only for particular sizes.", "anchors": ["src/ulam/NodeBinaryOpShiftLeft.cpp:resultBitsize"]}
{"id": "C27", "title": "Distinct types get distinct mangled names", "statement": "Two complete primitive types have the same mangled name only if they agree on base type, bit size, array size and reference-ness.", "quantifier": "every pair of types", "why_tests_cant": "Quadratic in an unbounded set of array sizes.", "anchors": ["src/ulam/UlamType.cpp:getUlamTypeMangledType", "src/ulam/UlamUtil.cpp:ToLeximitedNumber"]}
{"id": "C28", "title": "Overloads of a function get distinct C++ names", "statement": "Two functions with the same name whose parameter type lists differ in mangled types have different generated names, whatever the number of parameters.", "quantifier": "every pair of parameter lists of any length", "why_tests_cant": "Unbounded lists; ambiguity arises only for crafted concatenations.", "anchors": ["src/ulam/SymbolFunction.cpp:getMangledNameWithTypes"]}
{"id": "C29", "title": "Type keys are strictly ordered consistently with equality", "statement": "The ordering used to index types by key is a strict total order: exactly one of a<b, a=b, b<a holds and it is transitive, so map lookups never miss or confuse a key.", "quantifier": "every pair and triple of type keys", "why_tests_cant": "Triples of 5-field keys.", "anchors": ["src/ulam/UlamKeyTypeSignature.cpp:operator<", "src/ulam/UlamKeyTypeSignature.cpp:operator=="]}
{"id": "C30", "title": "Type registration returns one index per known type", "statement": "Registering types in any order: asking again for a fully known non-class key returns the same type index, different keys never share an index, and an index once returned keeps denoting the key it was made for.", "quantifier": "every sequence of type registrations (fewer than 65536)", "why_tests_cant": "History property; index space exhaustion cannot be reached by ordinary tests.", "anchors": ["src/ulam/CompilerState.cpp:makeUlamType", "src/ulam/CompilerState.cpp:anyDefinedUTI"]}
{"id": "C31", "title": "Type alias resolution finds the representative", "statement": "After any sequence of alias updates, resolving a type through its alias chain returns the end of the chain and resolving again changes nothing.", "quantifier": "every sequence of alias updates and every type index", "why_tests_cant": "Chains of arbitrary length arise only from long histories.", "anchors": ["src/ulam/CompilerState.cpp:findRootUTIAlias", "src/ulam/CompilerState.cpp:updateUTIAliasForced"]}
{"id": "C32", "title": "Ancestor traversal visits every ancestor exactly once", "statement": "Walking the base classes of a class, depth-first or breadth-first, terminates and visits exactly the classes reachable through base-class links, each once, starting with the class itself, even if the inheritance graph is cyclic.", "quantifier": "every finite inheritance graph and every starting class", "why_tests_cant": "All finite graphs; shared (diamond) bases and cycles included.", "anchors": ["src/ulam/BaseclassWalker.cpp:addAncestorPairsOf", "src/ulam/BaseclassWalker.cpp:getNextBasePair"]}
{"id": "C33", "title": "Subclass test equals reachability", "statement": "The test 'is class A a subclass of class B' answers yes exactly when B is a different class reachable from A through one or more base-class links.", "quantifier": "every finite inheritance graph, every pair of classes", "why_tests_cant": "All finite graphs.", "anchors": ["src/ulam/CompilerState.cpp:isClassASubclassOf", "src/ulam/SymbolClass.cpp:isABaseClassItemSearch"]}
{"id": "C34", "title": "break and continue target the nearest enclosing statement", "statement": "While parsing, a break gets the exit label of the nearest enclosing loop or switch and a continue that of the nearest enclosing loop; leaving a construct restores the previous targets; a label is emitted exactly if a statement uses it.", "quantifier": "every nesting of loops and switches and every sequence of break/continue", "why_tests_cant": "All nestings.", "anchors": ["src/ulam/ParsingLoopsSwitchStack.cpp"]}
{"id": "C35", "title": "Element type numbers are unique and never reserved", "statement": "Generated element type numbers are pairwise different, never 0 (undefined) and never the Empty type, and fit the element type field; looking one up returns the class it was made for.", "quantifier": "every number of elements up to the capacity", "why_tests_cant": "Depends on the whole history of generated numbers.", "anchors": ["src/ulam/ElementTypeGenerator.cpp:makeAType", "src/ulam/ElementTypeGenerator.cpp:makeNextType"]}
{"id": "C36", "title": "No compile error is lost or repeated", "statement": "After any sequence of diagnostics, the error and warning counts equal the number of errors and warnings reported since they were last cleared, and each distinct message is written to the user exactly once.", "quantifier": "every sequence of diagnostics with every mixture of levels and modes", "why_tests_cant": "History property.", "anchors": ["src/ulam/ErrorMessageHandler.cpp:buildMessage", "src/ulam/ErrorMessageHandler.cpp:getErrorCount"]}
{"id": "C37", "title": "Class data members and base parts never overlap", "statement": "For every class hierarchy, the bit ranges assigned to the data members declared in a class and to the own part of each of its direct and indirect base classes are pairwise disjoint, cover exactly the class's bit size, and each shared base appears once.", "quantifier": "every acyclic class hierarchy with any data member sizes", "why_tests_cant": "All hierarchies (diamonds, repeated indirect bases) and sizes.", "anchors": ["src/ulam/NodeBlockClass.cpp:packBitsForVariableDataMembers", "src/ulam/NodeVarDeclDM.cpp:packBitsInOrderOfDeclaration", "src/ulam/SymbolClass.cpp:determineSharedBasesAndTotalBitsize", "src/ulam/SymbolClassName.cpp:setBitSizeOfClassInstances"]}
{"id": "C38", "title": "Union members share the front and never overlap the bases", "statement": "In a quark union all data members start at the same position and the base parts lie after the largest member.", "quantifier": "every union with any members and bases", "why_tests_cant": "All combinations of member sizes and base classes.", "anchors": ["src/ulam/NodeVarDeclDM.cpp:packBitsInOrderOfDeclaration", "src/ulam/NodeBlockClass.cpp:packBitsForVariableDataMembers"]}
{"id": "C39", "title": "Virtual tables: every inherited slot has its own place", "statement": "In the virtual table of a class, the slots originating in different ancestors occupy disjoint consecutive ranges, each ancestor once, and the slot found through (originating class, index) holds the entry for that originating function.", "quantifier": "every acyclic class hierarchy with any numbers of virtual functions", "why_tests_cant": "All hierarchies.", "anchors": ["src/ulam/SymbolClass.cpp:initVTable", "src/ulam/SymbolClass.cpp:updateVTable", "src/ulam/SymbolClass.cpp:setVTstartoffsetOfRelatedOriginatingClass"]}
{"id": "C40", "title": "Overload resolution picks a unique best match or reports ambiguity", "statement": "For a call, overload selection returns a function only if it is the only candidate reachable by exact or safe matching, or the unique one of the same base types; otherwise it reports zero or several matches and selects nothing.", "quantifier": "every set of overloads and argument types", "why_tests_cant": "All candidate sets and match patterns.", "anchors": ["src/ulam/SymbolFunctionName.cpp:findMatchingFunctionWithSafeCasts", "src/ulam/SymbolFunctionName.cpp:findMatchingFunctionStrictlyByTypes"]}
{"id": "C41", "title": "Expression parsing follows the grammar's precedence and associativity", "statement": "Parsing the token sequence of an expression written with the minimal parentheses the published grammar requires returns that expression: multiplicative binds tighter than additive, then shifts, comparisons, equality, bitwise, logical, conditional and assignment; binary operators associate to the left, assignment to the right.", "quantifier": "every expression tree", "why_tests_cant": "Infinite set of expressions; interaction of each pair of levels.", "anchors": ["src/ulam/Parser.cpp:parseExpression", "src/ulam/Parser.cpp:parseRestOfTerm", "src/ulam/Parser.cpp:makeTermNode", "src/ulam/Parser.cpp:parseAssignExpr", "doc/grammar/grammar.txt"]}
{"id": "C42", "title": "The expression parser never builds an operator without operands", "statement": "For every token sequence, whatever errors it contains, every operator node in a parse tree returned by the expression parser has all its operands.", "quantifier": "every token sequence, well formed or not", "why_tests_cant": "Error recovery paths for arbitrary malformed input.", "anchors": ["src/ulam/Parser.cpp:parseRestOfTerm", "src/ulam/Parser.cpp:makeTermNode", "src/ulam/Parser.cpp:parseRestOfBitExpression"]}
{"id": "C43", "title": "Symbol tables behave as finite maps", "statement": "Any sequence of add, rename, replace, remove, copy, merge and clear on symbol tables gives the lookup results of plain finite maps; calls on a single entry that the table rejects leave it unchanged; and every symbol always has exactly one owner, so none is deleted twice.", "quantifier": "every sequence of table operations on any number of tables", "why_tests_cant": "History property.", "anchors": ["src/ulam/SymbolTable.cpp"]}
{"id": "C44", "title": "A .ulam file name is recognised exactly by its suffix", "statement": "A file name is accepted as ulam source exactly when it ends with .ulam and has a non-empty stem, and the class name derived from it is the stem.", "quantifier": "every file name", "why_tests_cant": "All strings; repeated suffix substrings.", "anchors": ["src/ulam/UlamUtil.cpp:FindUlamFilenameSuffix", "src/ulam/CompilerState.cpp:getClassNameFromFileName"]}
{"id": "C45", "title": "Type comparison is an equivalence on complete types", "statement": "Type comparison is reflexive, symmetric and transitive on complete types, never answers 'same' for types that differ in base, size, array-ness or reference-ness, and answers 'unknown' only if one side is incomplete.", "quantifier": "every pair and triple of types", "why_tests_cant": "Triples of types with holes.", "anchors": ["src/ulam/UlamType.cpp:compare", "src/ulam/UlamType.cpp:compareForArgumentMatching"]}
{"id": "C46", "title": "Array size limits cannot be bypassed", "statement": "Setting the size of a primitive or class array is accepted only if the total number of bits (items times item size) is within the limit for its kind.", "quantifier": "every bit size and array size", "why_tests_cant": "Wrap-around of the product shows only for huge array sizes.", "anchors": ["src/ulam/CompilerState.cpp:setSizesOfNonClassAndArrays"]}
{"id": "C47", "title": "Operator overload names are unique and reversible", "statement": "Each overloadable operator gets a function name that is a legal identifier, different from every other operator's, and from which the operator's spelling can be recovered.", "quantifier": "every overloadable operator spelling", "why_tests_cant": "All pairs of spellings.", "anchors": ["src/ulam/Token.cpp:getOperatorOverloadFullName", "src/ulam/Token.cpp:isOperatorOverloadIdentToken"]}
{"id": "C48", "title": "Unary values depend only on the number of ones", "statement": "Converting between Unary and Unsigned/Int preserves the count of ones and every count from 0 to the size is representable.", "quantifier": "every Unary size and bit pattern", "why_tests_cant": "2^n bit patterns.", "anchors": ["src/ulam/UlamTypePrimitiveUnary.cpp:castTo32", "src/ulam/UlamTypePrimitiveUnary.cpp:castTo64"]}
{"id": "C49", "title": "Every string index the compiler calls valid denotes a string", "statement": "Whenever the compiler's validity test accepts a user string index, looking that index up yields a registered user string.", "quantifier": "every registration history and every 32-bit index", "why_tests_cant": "Arbitrary indexes arising from run-time constant evaluation; all histories.", "anchors": ["src/ulam/CompilerState.cpp:isValidUserStringIndex", "src/ulam/StringPoolUser.cpp:getUserStringPoolSize"]}
{"id": "C50", "title": "Source text shown for a position is the text of that line", "statement": "The line of source text the compiler shows for a position (as a comment in generated code) is the line of the file with that number.", "quantifier": "every file contents and every line number", "why_tests_cant": "All texts, including empty first lines, unterminated last lines and repeated loading.", "anchors": ["src/ulam/CompilerState.cpp:appendNextLineOfText", "src/ulam/CompilerState.cpp:getLineOfText", "src/ulam/SourceStream.cpp:updateLineOfText"]}
{"id": "C51", "title": "Array subscripts outside the array are refused", "statement": "Evaluating a read or a store of an array item whose index is not between 0 and the array size minus 1 is an error; it never touches other bits.", "quantifier": "every packed array type, position and s32 index", "why_tests_cant": "All types, placements and 2^32 indexes; a few out-of-range tests do not show the boundary of what is refused.", "anchors": ["src/ulam/NodeSquareBracket.cpp:NodeSquareBracket::eval", "src/ulam/NodeSquareBracket.cpp:NodeSquareBracket::evalToStoreInto", "src/ulam/UlamValue.cpp:UlamValue::incrementPtr"]}
{"id": "C52", "title": "Literals are accepted exactly by the types that can hold them", "statement": "A numeric literal or constant is implicitly accepted where an Int, Unsigned or Unary of some size is needed exactly if that type can represent its number, and it then has that number; the type first given to a written number holds it.", "quantifier": "every 64-bit constant, every type and size of the constant and of the destination", "why_tests_cant": "2^64 constants times all destination types and sizes; tests check a few boundary literals.", "anchors": ["src/ulam/NodeTerminal.cpp:NodeTerminal::safeToCastTo", "src/ulam/NodeTerminal.cpp:NodeTerminal::fitsInBits32", "src/ulam/NodeTerminal.cpp:NodeTerminal::fitsInBits64", "src/ulam/NodeTerminal.cpp:NodeTerminal::convertForthAndBack", "src/ulam/NodeTerminal.cpp:NodeTerminal::checkAndLabelType"]}
{"id": "C53", "title": "Constant arithmetic is folded exactly", "statement": "An operation +, -, *, / or % on two integer constants is folded to the exact mathematical result when the type of the result can hold it, otherwise to the nearest number of that type; a division by zero is not folded to a value.", "quantifier": "every pair of constant values of every pair of Int, Unsigned and Unary types", "why_tests_cant": "The casts to the common type, the operation and the final cast multiply into far more cases than tests can list.", "anchors": ["src/ulam/NodeBinaryOp.cpp:constantFold", "src/ulam/NodeBinaryOp.cpp:doBinaryOperationImmediate", "src/ulam/NodeBinaryOpArithAdd.cpp:makeImmediateBinaryOp", "src/ulam/NodeBinaryOpArithDivide.cpp:makeImmediateBinaryOp", "src/ulam/NodeBinaryOpArithDivide.cpp:castThyselfToResultType"]}
{"id": "C54", "title": "Template instances with different arguments are told apart", "statement": "The argument string under which an instance of a class template is stored and looked up determines the argument values: two instances with different values never get the same string.", "quantifier": "every list of template arguments: numbers of 1..64 bits, arrays of them, user strings, class constants", "why_tests_cant": "The strings concatenate encodings of different shapes (length-prefixed numbers, bare hexadecimal for strings); whether any two of the unboundedly many argument lists collide cannot be sampled.", "anchors": ["src/ulam/SymbolClassNameTemplate.cpp:formatAnInstancesArgValuesAsAString", "src/ulam/SymbolWithValue.cpp:convertValueToALexString", "src/ulam/SymbolWithValue.cpp:getValueAsHexString", "src/ulam/SymbolWithValue.cpp:getArrayValueAsString"]}
{"id": "C55", "title": "A string literal is the bytes it denotes", "statement": "A text between double quotes, with its escapes (letters, octal, hexadecimal), is read as exactly the bytes it denotes, up to the closing quote; nothing else is read as a string; a character between single quotes likewise.", "quantifier": "every literal body of at most 255 bytes and every rest of the input", "why_tests_cant": "Unboundedly many bodies, escapes cut short by the closing quote or by a character that is no digit.", "anchors": ["src/ulam/Lexer.cpp:Lexer::makeDoubleQuoteToken", "src/ulam/Lexer.cpp:Lexer::makeSingleQuoteToken", "src/ulam/Lexer.cpp:Lexer::formatOctalConstant", "src/ulam/Lexer.cpp:Lexer::formatHexConstant"]}
{"id": "C56", "title": "A number literal is one token with the right sign", "statement": "A decimal, octal, hexadecimal or binary literal, with or without a final u, is read whole as one number token, unsigned exactly if it has a prefix or a final u; and no text that is not a number is read as one.", "quantifier": "every digit sequence in every base and every rest of the input", "why_tests_cant": "Unboundedly many digit sequences and wrong digits at every position.", "anchors": ["src/ulam/Lexer.cpp:Lexer::makeNumberToken"]}
{"id": "C57", "title": "Virtual calls run the most specific override", "statement": "For every class, the virtual table slot that a call finds through the originating class and index of a virtual function holds the most specific declaration of that function among the class and its ancestors; a class is abstract exactly if one of these is pure; several originating declarations of an own function are an error.", "quantifier": "every acyclic class hierarchy with any virtual and non-virtual functions", "why_tests_cant": "All hierarchies with diamonds and overrides at every level; tests cover a few shapes.", "anchors": ["src/ulam/SymbolClass.cpp:initVTable", "src/ulam/SymbolFunction.cpp:calcMaxIndexOfVirtualFunction", "src/ulam/CompilerState.cpp:findOverrideMatchingVirtualFunctionStrictlyByTypesInAncestorOf", "src/ulam/CompilerState.cpp:findOriginatingMatchingVirtualFunctionStrictlyByTypesInAncestorOf", "src/ulam/SymbolClass.cpp:isAbstract"]}
{"id": "C58", "title": "The evaluator and the generated code run the same statements", "statement": "For every function body, the compile-time evaluator and the generated C++ execute the same actions in the same order and end the same way, with break, continue and return at any depth of loops, switches and conditionals.", "quantifier": "every nesting of statements, every behaviour of actions and conditions, every number of loop turns", "why_tests_cant": "All nestings and all runs; the two are different programs and the evaluator is only compared with the generated code on samples.", "anchors": ["src/ulam/NodeControlWhile.cpp:eval", "src/ulam/NodeControlWhile.cpp:genCode", "src/ulam/NodeStatements.cpp:eval", "src/ulam/NodeBreakStatement.cpp:eval", "src/ulam/NodeContinueStatement.cpp:eval", "src/ulam/Parser.cpp:makeControlWhileNode"]}
{"id": "C59", "title": "A compilation that reports an error fails", "statement": "Over a whole compilation - parsing all files, the repeated resolving passes with their clearing of the counts, the labeling phases, registration and code generation - the result and the exit status of the compiler are zero exactly when no error was reported and every file could be opened.", "quantifier": "every set of files and every sequence of messages from every phase", "why_tests_cant": "The counts are cleared up to a hundred times per compilation and summed over files; all mixtures of phases, turns and message numbers are beyond tests.", "anchors": ["src/ulam/Compiler.cpp:compileFiles", "src/ulam/Compiler.cpp:compileFile", "src/ulam/Compiler.cpp:checkAndTypeLabelProgram", "src/ulam/Parser.cpp:parseProgram", "src/ulam/ErrorMessageHandler.cpp:clearCounts", "src/drivers/culam/main.cpp:RunCompilation"]}
{"id": "C60", "title": "The expression parser ends on every token sequence", "statement": "For every token sequence, malformed or not, the expression parser answers after finitely many steps and leaves no more tokens than it was given.", "quantifier": "every token sequence", "why_tests_cant": "Mutual recursion over about thirty functions with error recovery that re-reads tokens; a test cannot show the absence of an endless loop.", "anchors": ["src/ulam/Parser.cpp:parseAssignExpr", "src/ulam/Parser.cpp:parseRestOfMemberSelectExpr", "src/ulam/Parser.cpp:wrapFactor", "src/ulam/Parser.cpp:getNextToken"]}
{"id": "C61", "title": "The expression parser drops no token without saying so", "statement": "When the expression parser returns a tree and reports no error, the tokens of the tree from left to right, parentheses and commas aside, are exactly the tokens it consumed.", "quantifier": "every token sequence", "why_tests_cant": "Silent recovery paths for arbitrary malformed input: no finite set of tests covers them.", "anchors": ["src/ulam/Parser.cpp:parseRestOfFunctionCallArguments", "src/ulam/Parser.cpp:wrapFactor", "src/ulam/Parser.cpp:makeTermNode"]}
{"id": "C62", "title": "Class sizes are found and true", "statement": "The repeated sizing passes give every class of a program without circular containment the sum of its own bits (the largest member for a union) and of the bits of each of its ancestors once, in whatever order the classes come; a class that contains itself, directly or not, never gets a size; a size over the limit for the kind of class is an error.", "quantifier": "every set of classes with any members, arrays of classes, bases and unions, and every order of the table of classes", "why_tests_cant": "All containment graphs and all orders of the class table: whether the recursion, the passes and the saved base sizes meet in the right order shows only on particular combinations.", "anchors": ["src/ulam/SymbolTableOfVariables.cpp:calcVariableSymbolTypeSize", "src/ulam/SymbolTableOfVariables.cpp:getTotalVariableSymbolsBitSize", "src/ulam/SymbolTableOfVariables.cpp:getMaxVariableSymbolsBitSize", "src/ulam/SymbolClass.cpp:trySetBitsizeWithUTIValues", "src/ulam/SymbolClass.cpp:determineSharedBasesAndTotalBitsize", "src/ulam/SymbolClassName.cpp:setBitSizeOfClassInstances", "src/ulam/CompilerState.cpp:setUTISizes"]}
{"id": "C63", "title": "Comparisons of constants are true", "statement": "A comparison of two constants folded at compile time is true exactly when the relation holds between the two numbers (the two truths for Bools, the bits for Bits), whatever types and sizes they have; where the common type has no room for one of the numbers, and for every pairing of types that has no meaning, an error is reported rather than an answer.", "quantifier": "every pair of constants of every primitive type and size from 1 to 64 bits, and every comparison operator", "why_tests_cant": "All pairs of types, sizes and values: a wrong common type shows only for values near its limits, such as a large Unsigned(32) against a negative Int.", "anchors": ["src/ulam/NodeBinaryOpCompare.cpp:doBinaryOperationImmediate", "src/ulam/NodeBinaryOpCompare.cpp:calcNodeType", "src/ulam/NodeBinaryOpCompareEqualEqual.cpp:makeImmediateBinaryOp", "src/ulam/NodeBinaryOpCompareLessThan.cpp:makeImmediateBinaryOp", "src/ulam/NodeTerminal.cpp:safeToCastTo"]}
{"id": "C64", "title": "Bit operations on constants act on the right bits", "statement": "A folded &, | or ^ takes each bit of its result from the bits of the two operands at the same place; ~ flips each bit; ! negates the truth of a Bool; << and >> move the bits by the distance, filling with zeros; the size of the result is the size the type promises, and a distance that is not a number from 0 to 2^32 - 1 is an error.", "quantifier": "every constant of every primitive type and size from 1 to 64 bits, and every distance", "why_tests_cant": "All types, sizes, values and distances: a lost or wrongly placed bit shows only for particular sizes of the two operands.", "anchors": ["src/ulam/NodeBinaryOpBitwise.cpp:calcNodeType", "src/ulam/NodeBinaryOpShift.cpp:calcNodeType", "src/ulam/NodeBinaryOpShiftLeft.cpp:resultBitsize", "src/ulam/NodeBinaryOpShiftRight.cpp:resultBitsize", "src/ulam/NodeBinaryOp.cpp:doBinaryOperationImmediate", "src/ulam/NodeUnaryOpTwiddle.cpp:makeImmediateUnaryOp", "src/ulam/NodeUnaryOpBang.cpp:makeImmediateUnaryOp"]}
{"id": "C65", "title": "Evaluator and generated code agree on order of evaluation and on conditions", "statement": "Running a piece of Ulam code with the compiler's evaluator and running the generated C++ give the same value, the same contents of every variable and the same failures, provided no operand, index or argument writes what a neighbouring operand, index or argument reads or writes and all conditions are single bits. && and || never run their right side when the left side decides. Outside that region the two differ: operands, stores through an index and call arguments are run in opposite orders, and a Bool(n) condition is true to the evaluator when any bit is set but to the generated code when most bits are.", "quantifier": "for all programs of the modelled language (expressions with assignments, arrays, compound assignment, &&, ||, ?:, calls of recursive functions, if and while), all initial stores, all operator functions, all call depths", "why_tests_cant": "a test compares the two on one program with one set of side effects; the orders and the truth tests are only visible when operands interfere or when a multi-bit Bool is not all ones, and the agreement claim ranges over all programs", "anchors": ["src/ulam/NodeBinaryOp.cpp: NodeBinaryOp::eval", "src/ulam/NodeBinaryOp.cpp: NodeBinaryOp::genCode", "src/ulam/NodeBinaryOpEqual.cpp: NodeBinaryOpEqual::eval", "src/ulam/NodeBinaryOpEqual.cpp: NodeBinaryOpEqual::genCode", "src/ulam/NodeFunctionCall.cpp: evalArgumentsInReverseOrder", "src/ulam/NodeFunctionCall.cpp: genRestOfFunctionArgs", "src/ulam/NodeBinaryOpLogicalAnd.cpp: eval", "src/ulam/NodeBinaryOpLogicalAnd.cpp: NodeBinaryOpLogicalAnd::genCode", "src/ulam/NodeBinaryOpLogicalOr.cpp: eval", "src/ulam/NodeQuestionColon.cpp: eval", "src/ulam/NodeControl.cpp: NodeControl::genCode", "src/ulam/NodeControlIf.cpp: eval", "src/ulam/NodeControlWhile.cpp: eval"]}
{"id": "C66", "title": "Array subscripts reach the item they name", "statement": "For an array of n items lying anywhere in a packed word or in the slots of a stack, and an index of any numeric type: if the value of the index is one of 0..n-1, then the compile-time check of a constant index, the read and the store of the evaluator, and the generated code all accept it and go on with exactly that item; any other index is refused with an error, never taken for another place.", "quantifier": "all array sizes, positions and item sizes, all index types Int(1..64) and Unsigned(1..64), all index values, constant or not", "why_tests_cant": "The checks compare different encodings of the index (sign-extended, truncated, raw bits); only particular combinations of width, sign and array size expose an index that slips through, and the wrong access usually does no visible harm in a test.", "anchors": ["src/ulam/NodeSquareBracket.cpp: NodeSquareBracket::eval", "src/ulam/NodeSquareBracket.cpp: NodeSquareBracket::evalToStoreInto", "src/ulam/NodeSquareBracket.cpp: NodeSquareBracket::evalAUserStringByte", "src/ulam/NodeSquareBracket.cpp: NodeSquareBracket::genCodeToStoreInto", "src/ulam/NodeSquareBracket.cpp: NodeSquareBracket::getArraysizeInBracket", "src/ulam/NodeSquareBracket.cpp: NodeSquareBracket::checkAndLabelType", "src/ulam/UlamValue.cpp: UlamValue::incrementPtr", "src/ulam/UlamValue.cpp: UlamValue::getValAt", "src/ulam/Node.cpp: Node::genCodeConvertATmpVarIntoAutoRef"]}
{"id": "C67", "title": "Class default values place every initial value where the layout says", "statement": "The default value of a class holds, for every data member of the class at its packed position: the value of its initialiser, the default value of its class (once per array item) if it has none, the default atom of the Empty element for atoms, or zero; for every base class at its position the default value of that class; the element header for elements; and these rules determine every bit of it. The members of a union all start at its first bit, and none has an initialiser, so the later member's class default wins.", "quantifier": "for all programs with acyclic inheritance and containment, all classes that fit 8192 bits and any nesting depth", "why_tests_cant": "Tests instantiate a few dozen concrete classes; the claim is about every class hierarchy, shared bases and nesting, and about every bit, including those no test reads.", "anchors": ["src/ulam/NodeVarDeclDM.cpp: NodeVarDeclDM::buildDefaultValue", "src/ulam/NodeVarDeclDM.cpp: NodeVarDeclDM::foldDefaultClass", "src/ulam/NodeBlockClass.cpp: NodeBlockClass::buildDefaultValue", "src/ulam/SymbolClass.cpp: SymbolClass::getDefaultValue", "src/ulam/CompilerState.cpp: CompilerState::getDefaultClassValue", "src/ulam/CompilerState.cpp: CompilerState::getDefaultAsArray"]}
{"id": "C69", "title": "Array initialiser lists fill every item", "statement": "An array initialised by a list has item i of the list at index i and the last item of the list at every later index; a list longer than the array is rejected; items of class arrays start from the default value of the class; an empty list leaves every item at its default.", "quantifier": "for all item sizes up to 64 bits (any class size for class arrays), all array sizes that fit 8192 bits and all lists", "why_tests_cant": "The repeated last item, the defaults beneath partial class items, and the empty list interact over unboundedly many sizes and lists; tests cover a handful.", "anchors": ["src/ulam/NodeListArrayInitialization.cpp: NodeListArrayInitialization::buildArrayValueInitialization", "src/ulam/NodeListArrayInitialization.cpp: NodeListArrayInitialization::buildClassArrayValueInitialization", "src/ulam/NodeVarDecl.cpp: NodeVarDecl::foldArrayInitExpression", "src/ulam/NodeConstantDef.cpp: NodeConstantDef::foldArrayInitExpression"]}
{"id": "C70", "title": "Class initialiser lists change exactly the members they name", "statement": "A class initialiser list applied to a value changes exactly the named data members, recursively through nested lists and arrays and also for members inherited from bases, to the values given, and leaves every other bit as in the default value; a list that would set the same bit twice (a member twice, two members of a union) or that names a member of no ancestor is rejected.", "quantifier": "for all programs with acyclic inheritance and containment, all classes that fit 8192 bits and all initialiser lists of any nesting depth", "why_tests_cant": "The frame condition (nothing else changes) is about all bits of all classes for all lists; tests read only the members they name.", "anchors": ["src/ulam/NodeInitDM.cpp: NodeInitDM::initDataMemberConstantValue", "src/ulam/NodeListClassInit.cpp: NodeListClassInit::initDataMembersConstantValue", "src/ulam/NodeVarDecl.cpp: NodeVarDecl::buildDefaultValueForClassConstantInitialization", "src/ulam/CompilerState.cpp: CompilerState::getABaseClassRelativePositionInAClass"]}
{"id": "C68", "title": "Values written as text denote the same bits", "statement": "The default value of a class, a class-typed or array constant and the value of an initialiser list are written into the generated C++ as an array of 32-bit words or as one constant. Compiled as C++, that text denotes exactly the bits the compiler computed, for every value and size: no word is lost, swapped or padded wrongly, the declared length is that of the value, and a value that is all zero is not confused with one that is not. Likewise the value of a data member or constant in the map of members, a leximited list of words without the zero words at its end, is read back as the bits of the value whatever text follows it.", "quantifier": "for all values and all sizes up to 8192 bits, for all classes of all well-formed programs, for all texts that follow", "why_tests_cant": "A value may have up to 256 words; the interesting ones have zero words at the start, in the middle or at the end, sizes that are not a multiple of 32, or exactly 32 or 64 bits, in combination with the different writers (class, array, list, quark, map). A test looks at a few values of one type each.", "anchors": ["src/ulam/SymbolWithValue.cpp: SymbolWithValue::getHexValueAsString", "src/ulam/SymbolWithValue.cpp: SymbolWithValue::getLexValueAsString", "src/ulam/SymbolWithValue.cpp: SymbolWithValue::printPostfixValueArray", "src/ulam/CompilerState.cpp: CompilerState::genCodeClassDefaultConstantArray", "src/ulam/NodeBlockClass.cpp: NodeBlockClass::genCodeBuiltInFunctionBuildDefaultQuark", "src/ulam/NodeListArrayInitialization.cpp: NodeListArrayInitialization::genCode", "src/ulam/MapDataMemberDesc.cpp: DataMemberDesc::getValueAsString"]}
{"id": "C71", "title": "A name stands for the innermost visible declaration", "statement": "An identifier in a function stands for exactly one declaration: the innermost one, of those made before the use, in the blocks around it; or else the one of its class, or of the first of its bases in written order that has or inherits one; or else the constant or typedef of its file. After a dot, only the class of the object (and, from inside that class, its file) counts. The declaration found is not hidden on the way to it. A data member is refused exactly when some ancestor declares its name, and a typedef that two bases declare differently is reported.", "quantifier": "for all programs with any acyclic graph of classes, all nestings of blocks, all names and all places of use", "why_tests_cant": "Name resolution depends on the whole class graph, on block nesting and on the relative place of uses and declarations; wrong choices in rare shapes (diamonds, later constants) still compile to a working program.", "anchors": ["src/ulam/CompilerState.cpp: CompilerState::alreadyDefinedSymbol", "src/ulam/CompilerState.cpp: CompilerState::alreadyDefinedSymbolHere", "src/ulam/CompilerState.cpp: CompilerState::alreadyDefinedSymbolByAncestorOf", "src/ulam/CompilerState.cpp: CompilerState::alreadyDefinedSymbolByAncestorsOf", "src/ulam/NodeIdent.cpp: NodeIdent::checkUsedBeforeDeclared", "src/ulam/NodeConstant.cpp: NodeConstant::checkUsedBeforeDeclared", "src/ulam/NodeVarDeclDM.cpp: NodeVarDeclDM::checkForNoShadowingSubclass"]}
{"id": "C72", "title": "Statements are parsed as they are written", "statement": "Every function body that follows the published statement grammar (blocks, if/else, while, for, which with cases and otherwise, declarations, return, break, continue, expressions) is parsed without an error into exactly the tree the grammar gives it, up to its closing curly: an else belongs to the nearest if, a for becomes its first part and a loop with its step after the body, a which becomes a chain of ifs that runs the first body one of whose labels holds. Conversely what is accepted without an error is such a body, and nothing written is dropped silently.", "quantifier": "for every sequence of tokens and every body of the grammar, of any nesting depth", "why_tests_cant": "The nesting of statements is unbounded and an error shows only as a wrong tree; a test checks only the programs it lists.", "anchors": ["src/ulam/Parser.cpp: Parser::parseStatements", "src/ulam/Parser.cpp: Parser::parseStatement", "src/ulam/Parser.cpp: Parser::parseControlIf", "src/ulam/Parser.cpp: Parser::parseControlFor", "src/ulam/Parser.cpp: Parser::parseControlSwitch", "src/ulam/Parser.cpp: Parser::parseNextCase", "src/ulam/Parser.cpp: Parser::parseRestOfCase", "src/ulam/Parser.cpp: Parser::parseSimpleStatement"]}
{"id": "C73", "title": "Clashing functions are reported", "statement": "Two functions declared in one class with the same name and the same parameter types are reported as duplicates, as soon as parsing if the parameters are written alike and otherwise once the types are known; functions of a class and its ancestors with the same name and parameter types must have the same return type; overloads (different parameter types) and overrides in a subclass with the same return type are never reported. The code lets a duplicate pass when the first of the two, in the order of the table, is virtual.", "quantifier": "all sets of functions with any number of parameters, all template arguments, all families of classes", "why_tests_cant": "The table is keyed by mangled text and ordered by text of type numbers, so which clash is seen depends on names, sizes and the order types were first used; there are unboundedly many signatures and families.", "anchors": ["src/ulam/SymbolFunctionName.cpp: SymbolFunctionName::checkForDuplicateFunctionSignature", "src/ulam/SymbolFunctionName.cpp: SymbolFunctionName::overloadFunction", "src/ulam/SymbolFunction.cpp: SymbolFunction::getMangledNameWithUTIparameters", "src/ulam/NodeBlockClass.cpp: NodeBlockClass::checkDuplicateFunctionsInClassAndAncestors", "src/ulam/SymbolTableOfFunctions.cpp: SymbolTableOfFunctions::checkTableOfFunctions"]}
{"id": "C74", "title": "An explicit cast gives the nearest value of the new type, in the evaluator and in generated code alike", "statement": "Casting a value of Int, Unsigned, Unary or Bool to Int, Unsigned or Unary gives the representable number that is closest to the value's number. Casting to Bool gives true exactly for numbers that are not zero, with all its bits alike. Casting to or from Bits takes the bits over from the right and fills up with zeros. Every explicit cast between these types is accepted, except that a Bool may only be cast from a Bool, Bits, or an Unsigned or Unary of one bit. Where the evaluator calls a conversion function, the generated code calls the same one. Exception found: a cast of a String to Bits is accepted and generated, but cannot be evaluated.", "quantifier": "all pairs of primitive scalar types of 1 to 64 bits and all values", "why_tests_cant": "There are 25 pairs of types and 64 x 64 sizes, each with up to 2^64 values; the ends of the ranges and the switch from 32-bit to 64-bit words are where a conversion would be wrong.", "anchors": ["src/ulam/UlamTypePrimitive.cpp: UlamTypePrimitive::explicitlyCastable", "src/ulam/UlamTypePrimitive.cpp: UlamTypePrimitive::castMethodForCodeGen", "src/ulam/UlamTypePrimitiveBool.cpp: UlamTypePrimitiveBool::explicitlyCastable", "src/ulam/UlamTypePrimitiveBits.cpp: UlamTypePrimitiveBits::explicitlyCastable", "src/ulam/UlamTypePrimitiveBits.cpp: UlamTypePrimitiveBits::castTo32", "src/ulam/UlamTypePrimitiveInt.cpp: UlamTypePrimitiveInt::castTo32", "src/ulam/UlamTypePrimitiveUnsigned.cpp: UlamTypePrimitiveUnsigned::castTo64"]}
{"id": "C75", "title": "use, load and ulam directives are replaced by what they stand for", "statement": "The token sequence the parser gets from a source file is that of the file with every load directive replaced by the tokens of the named file (recursively), and every use and ulam directive left out. A directive that names a file that is not there, or a version newer than the compiler, gives exactly one error token in its place, and the tokens after it are unaffected. The result is unique; files that load one another in a circle are never read to the end. A token that is put back is read again unchanged. Exceptions found: a version of 2^32+1 passes for 1; words of a package name need no dots between them and a quoted name is glued to preceding words; a directive may be interrupted by another or end in another file; a file ending right after 'ulam 3' makes the compiler read the top of an empty stack; a file beginning with a character that is no token stops the compiler by an assertion; an error token put back is replaced by another error.", "quantifier": "every set of source files, every nesting of loads, every program", "why_tests_cant": "Nesting of loads is unbounded and directives interact with the one-token pushback of two tokenizers; a test fixes one set of files.", "anchors": ["src/ulam/Preparser.cpp: Preparser::getNextToken", "src/ulam/Preparser.cpp: Preparser::preparseKeywordUse", "src/ulam/Preparser.cpp: Preparser::preparseKeywordLoad", "src/ulam/Preparser.cpp: Preparser::preparsePackageName", "src/ulam/Preparser.cpp: Preparser::preparseFileName", "src/ulam/Preparser.cpp: Preparser::preparseKeywordUlam", "src/ulam/Preparser.cpp: Preparser::peekFirstToken", "src/ulam/SourceStream.cpp: SourceStream::push", "src/ulam/SourceStream.cpp: SourceStream::exists", "src/ulam/SourceStream.cpp: SourceStream::setFileUlamVersion"]}
{"id": "C76", "title": "An assignment that computes changes its left side, and only that, to the result of its operation", "statement": "For a variable or data member x of a primitive type and size, x += e, x -= e, x *= e, x /= e, x %= e, x++, x--, ++x and --x are accepted exactly if x is a number and the operand can be stored in x without loss, and leave in x the number nearest to the exact result that x can hold; the value of x++ and x-- is the old number, of the others the new one. x &= e, x |= e, x ^= e, x <<= e and x >>= e are accepted only on Bits and combine or move the bits. No bit outside x changes, a division by zero is an error as it is for / and %, and the evaluator passes the same function the same arguments as the generated code does.", "quantifier": "all operations, kinds and sizes of both sides, values, positions of x in its cell and contents of the rest of the cell", "why_tests_cant": "A test fixes one operation, one pair of types and one placement; saturation, bits next to the place and operands that differ in size from the left side need all values and all placements.", "anchors": ["src/ulam/NodeBinaryOpEqual.cpp: NodeBinaryOpEqual::doBinaryOperationImmediate", "src/ulam/NodeBinaryOpEqualArith.cpp: NodeBinaryOpEqualArith::checkAndLabelType", "src/ulam/NodeBinaryOpEqualArithPostIncr.cpp: NodeBinaryOpEqualArithPostIncr::doBinaryOperation", "src/ulam/NodeBinaryOpEqualBitwise.cpp: NodeBinaryOpEqualBitwise::calcNodeType", "src/ulam/NodeBinaryOpEqualShift.cpp: NodeBinaryOpEqualShift::calcNodeType", "src/ulam/NodeBinaryOpEqualArith.cpp: NodeBinaryOpEqualArith::methodNameForCodeGen"]}
{"id": "C77", "title": "is and as answer by the object's own class and its ancestors", "statement": "For every object seen through its own class, through a base class reference, or as the content of an Atom, the condition 'x is C' is true exactly if C is the class of the object or one of that class's ancestors, and the generated test gives the same answer. 'x as C' gives the same answer as 'x is C', and inside its block x denotes the C part of the object, at the bit position that the object's layout gives to C. What 'as' refuses at compile time could never be true.", "quantifier": "all class hierarchies, objects, static types they are seen as, and classes asked for", "why_tests_cant": "A test has one hierarchy and one chain of conditions; the answer and the position depend on the whole hierarchy, the static type and what storage the object is in.", "anchors": ["src/ulam/NodeConditionalIs.cpp: NodeConditionalIs::eval", "src/ulam/NodeConditionalIs.cpp: NodeConditionalIs::genCodeAtomIs", "src/ulam/NodeConditionalAs.cpp: NodeConditionalAs::eval", "src/ulam/NodeConditionalAs.cpp: NodeConditionalAs::checkAndLabelType", "src/ulam/NodeBlockClass.cpp: NodeBlockClass::genCodeBuiltInFunctionGetRelPosRelatedInstanceByRegistrationNumber"]}
{"id": "C78", "title": "Registration numbers identify classes", "statement": "Whatever classes ask for their registration numbers, in whatever order, how often, and whether they are complete at the time: two classes never get the same number, a number once given does not change, the registry leads from the number back to the class, and number 0 is only the root class's.", "quantifier": "all sequences of requests", "why_tests_cant": "The numbers are given on first use during passes whose order depends on the program; a test sees one order.", "anchors": ["src/ulam/CompilerState.cpp: CompilerState::assignClassId", "src/ulam/SymbolClass.cpp: SymbolClass::getRegistryNumber", "src/ulam/SymbolClass.cpp: SymbolClass::assignRegistryNumber"]}
{"id": "C79", "title": "A cast between classes reaches the part asked for, or is refused", "statement": "An implicit cast between classes, references to classes and Atom is accepted exactly if it takes away no protection against change and every object the expression may stand for is of the class asked for. An explicit cast is accepted only if some object the expression may stand for is of the class asked for, and never takes away protection. When an accepted cast is carried out on an object of the class asked for, the result denotes that class's part of the object, at its bit position in the object's layout; on any other object the cast fails. Evaluator and generated code agree on this.", "quantifier": "all class hierarchies, types cast from and to (values, references, constant references, as-variables, Atom), objects and positions", "why_tests_cant": "A test casts one object in one hierarchy; whether a cast is safe is a statement about every object a reference may stand for.", "anchors": ["src/ulam/UlamType.cpp: UlamType::safeCast", "src/ulam/UlamTypeClass.cpp: UlamTypeClass::safeCast", "src/ulam/UlamTypeClass.cpp: UlamTypeClass::explicitlyCastable", "src/ulam/UlamTypeClassElement.cpp: UlamTypeClassElement::explicitlyCastable", "src/ulam/UlamTypeClassQuark.cpp: UlamTypeClassQuark::explicitlyCastable", "src/ulam/UlamTypeAtom.cpp: UlamTypeAtom::safeCast", "src/ulam/UlamTypeAtom.cpp: UlamTypeAtom::explicitlyCastable", "src/ulam/NodeCast.cpp: NodeCast::checkAndLabelType", "src/ulam/NodeCast.cpp: NodeCast::evalToStoreInto", "src/ulam/NodeCast.cpp: NodeCast::genCodeCastDescendant", "src/ulam/NodeCast.cpp: NodeCast::genPositionOfBaseIntoATmpVar"]}
{"id": "C80", "title": "A base taken out of a value has every bit from the value, each in its place", "statement": "When a value of a class is cast to one of its bases, each bit of the new value is the bit that the same class's part of the old value has, for the base itself and all its own bases, shared or not, wherever the two layouts put them; no bit of the new value is left over or written twice. When a base part is assigned into a larger value, the bits of that value outside the part do not change.", "quantifier": "all class hierarchies without unions, layouts and bit contents", "why_tests_cant": "The two layouts place the same bases at different positions depending on the whole hierarchy; a test has one pair of layouts and few bit patterns.", "anchors": ["src/ulam/CompilerState.cpp: CompilerState::extractQuarkBaseFromSubclassForEval", "src/ulam/CompilerState.cpp: CompilerState::extractTransientBaseFromSubclassForEval", "src/ulam/UlamTypeClassQuark.cpp: UlamTypeClassQuark::cast", "src/ulam/UlamTypeClassTransient.cpp: UlamTypeClassTransient::cast"]}
{"id": "C81", "title": "Variables in scope at once have places of their own in the frame", "statement": "Every local variable of a function gets slots in the function's frame. Two variables that are in scope at the same time never share a slot, no variable reaches below the frame or into the parameters, and all slots of all variables lie within the number of slots that the evaluator sets aside for the frame. The frame grows no faster than the slots the code names.", "quantifier": "all function bodies: declarations, nested blocks, loops, ifs, choices, calls with any numbers of slots", "why_tests_cant": "The slot of a variable depends on every statement before it in the function; a test shows one function's result being right, which a shared slot need not disturb.", "anchors": ["src/ulam/NodeBlock.cpp: NodeBlock::calcMaxDepth", "src/ulam/NodeStatements.cpp: NodeStatements::calcMaxDepth", "src/ulam/NodeControl.cpp: NodeControl::calcMaxDepth", "src/ulam/NodeControlIf.cpp: NodeControlIf::calcMaxDepth", "src/ulam/NodeQuestionColon.cpp: NodeQuestionColon::calcMaxDepth", "src/ulam/NodeFunctionCall.cpp: NodeFunctionCall::calcMaxDepth", "src/ulam/NodeVarDecl.cpp: NodeVarDecl::calcMaxDepth", "src/ulam/NodeBinaryOp.cpp: NodeBinaryOp::calcMaxDepth", "src/ulam/NodeBlockFunctionDefinition.cpp: NodeBlockFunctionDefinition::calcMaxDepth", "src/ulam/SymbolFunctionName.cpp: SymbolFunctionName::calcMaxDepthOfFunctions"]}
{"id": "C82", "title": "A function finds its own arguments in its frame", "statement": "When a function is entered, each of its parameters holds, slot by slot, the argument given for it, self is the object it was called on, the slots for what it returns are there, and every slot of its variables can be used. The values of all frames below are as before the call. No parameter shares a slot with another, with self or with what is returned.", "quantifier": "all functions, numbers of parameters, sizes of arguments in slots, and stacks", "why_tests_cant": "The caller pushes and the callee reads by positions computed separately; a test calls a few functions with small parameters.", "anchors": ["src/ulam/NodeFunctionCall.cpp: NodeFunctionCall::evalArgumentsInReverseOrder", "src/ulam/NodeFunctionCall.cpp: NodeFunctionCall::evalHiddenArguments", "src/ulam/SymbolFunction.cpp: SymbolFunction::getTotalParameterSlots", "src/ulam/NodeBlockFunctionDefinition.cpp: NodeBlockFunctionDefinition::eval", "src/ulam/NodeBlockFunctionDefinition.cpp: NodeBlockFunctionDefinition::calcMaxDepth", "src/ulam/NodeList.cpp: NodeList::calcMaxDepth", "src/ulam/CallStack.cpp: CallStack::addFrameSlots"]}
{"id": "C83", "title": "A reference stands for what it was bound to", "statement": "A reference declared in a function stands, until its declaration is executed again in the same activation, for the place it was bound to: every read through it gives that place's value and every store through it changes that place and no other, whatever functions are called in between. The same holds for parameters that are references.", "quantifier": "all programs of assignments, declarations of references, array items, ifs and calls, and all numbers of steps", "why_tests_cant": "What a reference stands for is kept in state that other calls can reach; a test follows one order of calls.", "anchors": ["src/ulam/NodeVarRef.cpp: NodeVarRef::eval", "src/ulam/NodeIdent.cpp: NodeIdent::makeUlamValuePtr", "src/ulam/NodeIdent.cpp: NodeIdent::evalToStoreInto", "src/ulam/SymbolVariableStack.cpp: SymbolVariableStack::setAutoPtrForEval", "src/ulam/SymbolVariableStack.cpp: SymbolVariableStack::getAutoPtrForEval", "src/ulam/CompilerState.cpp: CompilerState::getPtrTarget", "src/ulam/NodeFunctionCall.cpp: NodeFunctionCall::evalArgumentsInReverseOrder", "src/ulam/CallStack.cpp: CallStack::assignUlamValue"]}
{"id": "C84", "title": "Nothing constant is changed", "statement": "An expression that the compiler lets be assigned to, bound to a non-constant reference, passed for a non-constant reference parameter, or used as the object of a function call, never stands for a named constant, a constant parameter or what a constant reference refers to; conversely, members, items and base classes of a name that is not constant are always permitted.", "quantifier": "all expressions built from variables, named constants, members, items, base selections, casts, ?:, .atomof, calls and assignments, all kinds of references, all four uses, all outcomes of the conditions", "why_tests_cant": "The tests assign to a few constant parameters and look for the error message. That no combination of selections, casts and choices lets a constant through is a statement about all expressions; it fails for ?: , casts to references and .atomof.", "anchors": ["src/ulam/Node.cpp: Node::setStoreIntoAble", "src/ulam/NodeIdent.cpp: NodeIdent::checkAndLabelType", "src/ulam/NodeIdent.cpp: NodeIdent::evalToStoreInto", "src/ulam/NodeCast.cpp: NodeCast::checkAndLabelType", "src/ulam/NodeCast.cpp: NodeCast::evalToStoreInto", "src/ulam/NodeQuestionColon.cpp: NodeQuestionColon::checkAndLabelType", "src/ulam/NodeMemberSelect.cpp: NodeMemberSelect::checkStoreIntoAble", "src/ulam/NodeStorageof.cpp: NodeStorageof::checkAndLabelType", "src/ulam/NodeFunctionCall.cpp: NodeFunctionCall::checkAndLabelType", "src/ulam/NodeVarRef.cpp: NodeVarRef::checkAndLabelType"]}
{"id": "C85", "title": "An accepted store reaches what its left side stands for", "statement": "When the compiler accepts an expression as the left side of an assignment, the evaluator and the generated code both store into the variable the expression stands for, given the outcomes of its conditions.", "quantifier": "all expressions accepted as left sides, all outcomes of the conditions", "why_tests_cant": "The tests store through a few shapes of left sides. That every accepted shape has a place, and the same one in the evaluator and in the generated code, quantifies over all expressions; it fails for assignments and values in the position of a left side.", "anchors": ["src/ulam/NodeBinaryOpEqual.cpp: NodeBinaryOpEqual::checkStoreIntoAble", "src/ulam/NodeBinaryOpEqual.cpp: NodeBinaryOpEqual::evalToStoreInto", "src/ulam/NodeQuestionColon.cpp: NodeQuestionColon::evalToStoreInto", "src/ulam/NodeQuestionColon.cpp: NodeQuestionColon::genCodeToStoreInto", "src/ulam/NodeCast.cpp: NodeCast::genCodeToStoreInto", "src/ulam/Node.cpp: Node::genCodeToStoreInto"]}
{"id": "C86", "title": "A returned reference stands for something that is still there", "statement": "When a function returns a reference, the caller gets the very place that the returned expression stood for in the function, and that place is there after the call: a reference to a variable or to an argument of the function itself is refused. What the caller then stores through the reference goes to that place and to no other.", "quantifier": "All programs of functions with value and reference parameters, local references and arrays, all returned expressions, all numbers of steps, in the evaluator", "why_tests_cant": "Whether a reference is local depends on the frame in which it was made and on the calls it was handed through; tests try a few chains of calls, none of them with an argument passed by value.", "anchors": ["src/ulam/NodeReturnStatement.cpp: NodeReturnStatement::evalToStoreInto", "src/ulam/CompilerState.cpp: CompilerState::isLocalUnreturnableReferenceForEval", "src/ulam/CompilerState.cpp: CompilerState::isLocalUnreturnableAbsoluteReferenceForEval", "src/ulam/CallStack.cpp: CallStack::isLocalStackIndex", "src/ulam/NodeFunctionCall.cpp: NodeFunctionCall::evalToStoreInto"]}
{"id": "C87", "title": "A function gives back a value of its type, the number that was returned, or it is refused", "statement": "A return statement is accepted only if the returned expression has the type of the function or is cast to it without changing its number; `return;` in a function with a type, a value in a Void function, and a body with no return statement at all in a function with a type are refused. When a function with a type runs to an end it ends by a return statement.", "quantifier": "all return statements with a value of a primitive type (any kind and width) or a literal (any value) in functions of any primitive type; all bodies made of statements, sequences, if, while, for, switch, break, continue and return; all runs", "why_tests_cant": "The values that fit depend on both kinds and both widths (1..64 each) and, for literals, on the number; that every path of a body of any nesting ends by a return is a statement about all paths of all bodies", "anchors": ["src/ulam/NodeReturnStatement.cpp: NodeReturnStatement::checkAndLabelType", "src/ulam/CompilerState.cpp: CompilerState::checkFunctionReturnNodeTypes", "src/ulam/UlamType.cpp: UlamType::compareWithWildALTKey"]}
{"id": "C88", "title": "A UMod counter goes through its values in a circle, and its comparisons follow the circle", "statement": "For every width and dead band of UMod: counting on by k and then back by k gives the counter back; the counter takes all values of its type; of two different counters exactly one is less, a counter is less than what it becomes by fewer than half a turn of counting; isComparable tells when two counters are too far apart for that; u++ is the counter before it is counted on. (Part of this does not hold: the greatest value of the type is never come to, isComparable is always true and in the dead band each counter is greater than the other, with two bits 1 is less than 0, u++ is the counter after.)", "quantifier": "all widths of 1 to 31 bits, all dead bands, all values of the counters and all amounts", "why_tests_cant": "A test compares some values of some width; the order near the half turn, the wrap-around of every width and the dead band are for all of them at once.", "anchors": ["share/ulam/stdlib/UMod.ulam: UMod", "src/ulam/NodeBinaryOpArith.cpp: NodeBinaryOpArith::calcNodeType", "src/ulam/NodeBinaryOpArithRemainder.cpp: NodeBinaryOpArithRemainder::castThyselfToResultType"]}
{"id": "C89", "title": "Random choices among sites and keys are fair", "statement": "When WindowScanner, WindowServices or SelectorServices choose among sites or keys with weights, each is as likely as its share of the weights; when they choose the greatest or smallest, something that has it is chosen, and those that have it are equally likely. (Part of this does not hold: categories for the greatest weight also choose smaller ones that come later and keep the greatest weight of earlier scans; counts that outgrow their type are unfair; ties after a new greatest value in SelectorServices are unfair.)", "quantifier": "all lists of sites or keys with all weights or values, in every order", "why_tests_cant": "Fairness is about how often a result comes among all sequences of random numbers; a test sees some of the sequences and cannot tell a bias from chance.", "anchors": ["share/ulam/stdlib/WindowScanner.ulam: WindowScanner", "share/ulam/stdlib/WindowServices.ulam: WindowServices", "share/ulam/misc/SelectorServices.ulam: SelectorServices"]}
{"id": "C90", "title": "Random ranges, odds and timers have the chances that they are documented with", "statement": "Random.between gives each whole number between its bounds, the bounds included, with the same chance; oddsOf(t, n) is true in t of n cases; XTimer and RXTimer alarm after k(2^level - 1) counts on the average, and trigger puts the alarm on; new of Once is true once after each reset. (Part of this does not hold: for ranges of 2^31 or more numbers the upper bound never comes; a level that the counter cannot hold never alarms.)", "quantifier": "all bounds, odds, widths, levels and states of a timer", "why_tests_cant": "Chances are counted over all random numbers; ranges go up to 2^31 numbers, and the average time to an alarm is over endlessly many runs.", "anchors": ["share/ulam/stdlib/Random.ulam: Random", "share/ulam/stdlib/XTimer.ulam: XTimer", "share/ulam/stdlib/RXTimer.ulam: RXTimer", "share/ulam/stdlib/Once.ulam: OnceT"]}
{"id": "C91", "title": "A stored checksum betrays corrupted bit storage", "statement": "computeChecksum of a BitStorage is the 32-bit cyclic redundancy check of its bits (the register started with ones, the last byte filled up with zero bits), its table being eight shift steps of the polynomial for every byte value. updateChecksum succeeds exactly when the checksum fits the usable storage, changes only the checksum's bits, and isChecksumValid then holds. With 32 check bits, any change of the data that lies within four of its bytes, in particular of any one bit, makes isChecksumValid false; so does any change of the stored checksum, for every number of check bits. With fewer check bits a change of one bit can go unnoticed.", "quantifier": "for all contents of a storage, all lengths of data and of checksum, all positions of the change", "why_tests_cant": "there are 2^n contents and as many corruptions; a wrong entry in the 256-entry table, or a wrong fill of the last byte, shows only for certain contents, and that no corruption of a kind slips through is a statement about all pairs of contents", "anchors": ["share/tcc/stdlib/Un_10109210BitStorage10_native.tcc: crc_32_tab", "share/tcc/stdlib/Un_10109210BitStorage10_native.tcc: UPDC32", "share/tcc/stdlib/Un_10109210BitStorage10_native.tcc: Uf_9215computeChecksum", "share/ulam/stdlib/BitStorage.ulam: isChecksumValid", "share/ulam/stdlib/BitStorage.ulam: updateChecksum"]}
{"id": "C92", "title": "Byte streams are queues, and printed numbers read back", "statement": "A ByteStreamArray answers every write and read like a bounded queue: a byte is taken while there is room, bytes are read in the order they were taken, none lost or repeated, and a read that finds none says whether more may come; reset makes it as new, reread gives the same bytes again (rewrite alone does not: the bytes written next are passed over). Printing an Unsigned writes its numeral in the base asked for (2 to 35, 0 meaning 10; base 36 is refused, though there is a digit for 35), printing an Int its signed decimal numeral; different numbers have different texts. writeBytes copies a string's bytes in order, at most max, and returns how many it read, which is more than were taken when the writer is full.", "quantifier": "for all capacities, all sequences of writes and reads, all numbers, bases, writers, strings and limits", "why_tests_cant": "sequences of operations and numbers are unbounded in number, and the numeral's uniqueness compares every two numbers", "anchors": ["share/ulam/stdlib/ByteStreamArray.ulam: writeByte", "share/ulam/stdlib/ByteStreamArray.ulam: readByte", "share/ulam/stdlib/ByteStreamArray.ulam: rewrite", "share/ulam/stdlib/ByteStreamString.ulam: readByte", "share/ulam/stdlib/ByteStream.ulam: print", "share/ulam/stdlib/ByteStream.ulam: writeBytes"]}
{"id": "C93", "title": "Names in generated code never clash", "statement": "The names that the compiler gives in a generated C++ function body - temporaries of each kind, labels, function pointers, local variables and references, data members, constants, functions, arrays of initial values, the hidden arguments - are different for different things: the name determines the kind, the number and the user's name. Only the temporaries are recognised as temporaries.", "quantifier": "for all numbers of temporaries, all user names of any length below 2^32, all kinds", "why_tests_cant": "a clash needs a particular pair of a kind and a number, or a user's name chosen to look like another name; any set of test programs leaves nearly all pairs out", "anchors": ["src/ulam/CompilerState.cpp: CompilerState::getTmpVarAsString", "src/ulam/CompilerState.cpp: CompilerState::isStringATmpVar", "src/ulam/CompilerState.cpp: CompilerState::getVFuncPtrTmpNumAsString", "src/ulam/Symbol.cpp: Symbol::getMangledName", "src/ulam/SymbolVariableStack.cpp: SymbolVariableStack::getMangledPrefix", "src/ulam/SymbolVariableDataMember.cpp: SymbolVariableDataMember::getMangledName", "src/ulam/SymbolConstantValue.cpp: SymbolConstantValue::getMangledName"]}
{"id": "C94", "title": "A conditional expression has the value of the branch its condition chooses", "statement": "If the compiler accepts c ? a : b, the expression has the number of a when c is true and of b when c is false, whatever the other branch would do; numeric branches are accepted exactly when one type of their common kind within the machine word holds every number of both, and the type chosen is the narrowest such type; anything else is refused with a message.", "quantifier": "all primitive types of 1 to 64 bits for the condition and both branches, and all their values", "why_tests_cant": "The type of the expression depends on three types with 64 sizes each and its value on all their values; tests can only try a few combinations, and the ones that abort the compiler were not among them.", "anchors": ["src/ulam/NodeQuestionColon.cpp: NodeQuestionColon::calcNodeType", "src/ulam/NodeQuestionColon.cpp: NodeQuestionColon::checkAndLabelType", "src/ulam/NodeQuestionColon.cpp: NodeQuestionColon::eval", "src/ulam/NodeQuestionColon.cpp: NodeQuestionColon::constantFold", "src/ulam/Node.cpp: Node::checkSafeToCastTo"]}
{"id": "C95", "title": "Comparisons of class operands call the right operator function", "statement": "When every class of the family of the left operand is known, a comparison of class operands calls the comparison's own operator function if the class or any of its ancestors has one, otherwise the negation of the inverse operator's function if the family has that, and is refused otherwise. So if the operator functions of a class agree with an order of its objects, every comparison the compiler accepts agrees with it. The names of operator functions are distinct, cannot be written by the programmer, and the operator is read back from them. A comparison is never thrown away without replacement, and the choice made before a base class is known stays right (both refuted).", "quantifier": "all inheritance graphs, all assignments of operator functions to classes, all six comparisons, all overloadable operators", "why_tests_cant": "Tests check a few classes with a few operators; the choice depends on the inheritance graph and on the order in which classes become known.", "anchors": ["src/ulam/NodeBinaryOpCompare.cpp: NodeBinaryOpCompare::checkAndLabelType", "src/ulam/NodeBinaryOpCompare.cpp: NodeBinaryOpCompare::buildOperatorOverloadFuncCallNode", "src/ulam/NodeBinaryOp.cpp: NodeBinaryOp::buildandreplaceOperatorOverloadFuncCallNode", "src/ulam/CompilerState.cpp: CompilerState::isFuncIdInAClassScopeOrAncestor", "src/ulam/Token.cpp: Token::getOperatorOverloadFullNameId", "src/ulam/Token.cpp: Token::getUlamNameIdForOperatorOverloadToken"]}
{"id": "C96", "title": "Files of classes are read as written", "statement": "Every file of the published grammar of classes (kinds, the concrete flag, class parameters with default values, base classes, typedefs, constants, model parameters, data members, functions, constructors, virtual and override flags) is read without an error as exactly the classes and members it defines, in order, each function with its flags, its parameters and its body; a file defines one list of classes only. What is read without an error is a file of that grammar, apart from a listed set of liberties. The parser ends on every sequence of tokens. Parameters are separated by commas, a class ends at its own closing curly, a colon is followed by a base class, the concrete flag stands before a class, and no file makes the compiler crash (these five are refuted).", "quantifier": "all files of any number of classes of any size, all sequences of tokens", "why_tests_cant": "Tests compile well-formed programs and a few dozen wrong ones; there are unboundedly many sequences of tokens, and a file that is accepted wrongly shows no symptom at the place of the mistake.", "anchors": ["src/ulam/Parser.cpp: Parser::parseThisClass", "src/ulam/Parser.cpp: Parser::parseClassBlock", "src/ulam/Parser.cpp: Parser::parseRestOfClassParameters", "src/ulam/Parser.cpp: Parser::parseRestOfMultiClassInheritance", "src/ulam/Parser.cpp: Parser::parseDataMember", "src/ulam/Parser.cpp: Parser::parseRestOfDataMember", "src/ulam/Parser.cpp: Parser::parseTypedef", "src/ulam/Parser.cpp: Parser::parseConstdef", "src/ulam/Parser.cpp: Parser::parseModelParameter", "src/ulam/Parser.cpp: Parser::parseRestOfConstantDef", "src/ulam/Parser.cpp: Parser::parseRestOfParameterDef", "src/ulam/Parser.cpp: Parser::makeFunctionSymbol", "src/ulam/Parser.cpp: Parser::makeFunctionBlock", "src/ulam/Parser.cpp: Parser::parseRestOfFunctionParameters", "src/ulam/Parser.cpp: Parser::parseFunctionBody"]}
{"id": "C97", "title": "Named constants may be defined in any order", "statement": "In an accepted program each named constant of a class has the value its defining expression has in terms of the values of the constants it uses; the order of the definitions changes no value, a constant that needs itself makes the program be refused, and a program all of whose constants have values is accepted exactly when no more than 100 uses in a row run against the order of the definitions (so a chain of 102 constants each using the next is refused, though in the other order it is accepted).", "quantifier": "for all lists of constant definitions with distinct names, of any length and any expressions", "why_tests_cant": "Values are found by passing over all classes again and again until nothing is hazy, up to a fixed number of iterations; tests use chains of two or three constants and cannot show that all orders agree, that no circular definition slips through, nor where the limit is.", "anchors": ["src/ulam/Compiler.cpp: Compiler::checkAndTypeLabelProgram", "src/ulam/Compiler.cpp: Compiler::resolvingLoop", "src/ulam/NodeConstantDef.cpp: NodeConstantDef::checkAndLabelType", "src/ulam/NodeConstantDef.cpp: NodeConstantDef::foldConstantExpression", "src/ulam/NodeConstant.cpp: NodeConstant::checkAndLabelType", "src/ulam/NodeConstant.cpp: NodeConstant::updateConstant", "src/ulam/NodeBinaryOp.cpp: NodeBinaryOp::checkAndLabelType", "src/ulam/NodeBinaryOp.cpp: NodeBinaryOp::constantFold"]}
{"id": "C98", "title": "A variable never holds an object one of whose functions has no body", "statement": "An accepted program has no element and no concrete class, no data member, parameter or local variable (arrays included, references excepted) whose class is abstract, and every program without one passes the check; hence the function that a virtual call finds for the object in a variable has a body. Temporaries and constants are not covered: a function may return an abstract class by value, and instanceof and constants of an abstract class are accepted.", "quantifier": "for all class graphs, all programs of any nesting of statements, all functions and variables", "why_tests_cant": "The check is a walk spread over twenty kinds of nodes, most of which only pass it on; a kind that forgets to do so goes unnoticed unless a test declares a variable of an abstract class exactly there.", "anchors": ["src/ulam/SymbolTableOfClasses.cpp: SymbolTableOfClasses::checkAbstractInstanceErrorsForTableOfClasses", "src/ulam/SymbolClass.cpp: SymbolClass::checkAbstractClassError", "src/ulam/SymbolClass.cpp: SymbolClass::isAbstract", "src/ulam/NodeVarDecl.cpp: NodeVarDecl::checkAbstractInstanceErrors", "src/ulam/NodeVarRef.cpp: NodeVarRef::checkAbstractInstanceErrors", "src/ulam/NodeBlockFunctionDefinition.cpp: NodeBlockFunctionDefinition::checkAbstractInstanceErrors", "src/ulam/NodeStatements.cpp: NodeStatements::checkAbstractInstanceErrors", "src/ulam/NodeControlIf.cpp: NodeControlIf::checkAbstractInstanceErrors"]}
{"id": "C99", "title": "A variable is not used in its own initial value", "statement": "In the initial value of a local variable the name of the variable stands for the declaration visible around the block (the scope of a variable begins after its declaration), or is refused if there is none, and every other name stands for what it does elsewhere in the block; so an accepted initial value never reads the variable being declared. Arguments of function calls are not covered: in Int a = f(a) the argument is the variable itself.", "quantifier": "for all class graphs, all nestings of blocks, all names and all initial values", "why_tests_cant": "The check is a second walk over the initial value, with its own method in each kind of node, some of which stop it; a missed kind shows only in a test that uses the variable exactly there.", "anchors": ["src/ulam/NodeVarDecl.cpp: NodeVarDecl::checkAndLabelType", "src/ulam/NodeIdent.cpp: NodeIdent::checkVarUsedBeforeDeclared", "src/ulam/NodeConstant.cpp: NodeConstant::checkVarUsedBeforeDeclared", "src/ulam/NodeBinaryOp.cpp: NodeBinaryOp::checkVarUsedBeforeDeclared", "src/ulam/NodeMemberSelect.cpp: NodeMemberSelect::checkVarUsedBeforeDeclared", "src/ulam/NodeFunctionCall.cpp: NodeFunctionCall::checkVarUsedBeforeDeclared", "src/ulam/NodeList.cpp: NodeList::checkVarUsedBeforeDeclared", "src/ulam/NodeQuestionColon.cpp: NodeQuestionColon::checkVarUsedBeforeDeclared"]}
{"id": "C100", "title": "Points are added, compared and measured in full, or saturate", "statement": "For the points C2D and C2DT(n) of the standard library, with coordinates of 1 to 32 bits: adding, subtracting, multiplying, dividing, negating and taking the absolute value gives in each coordinate the representable number closest to the exact result, and a division fails exactly if it is by zero. manhattanDistance is a distance (not negative, symmetric, zero only between equal points, triangle inequality) and the true one whenever the differences are representable; length is the distance from the origin; dot, area and the squared Euclidean measures are the exact numbers up to the largest Int; the square of the distance of two points does not depend on which is named first. max, min, clamp, contains, minc, maxc, take, takex and takey are what their names say. neighbor gives each point around the origin for exactly one direction, opposite directions are opposite points, and corner is the point of length 4 in that direction.", "quantifier": "all widths 1..32, all points, all scalars, all directions", "why_tests_cant": "There are 2^64 pairs of C2D points, and the width is a template parameter; the cases that go wrong are the ones where an intermediate result saturates.", "anchors": ["share/ulam/stdlib/C2D.inc: manhattanDistance", "share/ulam/stdlib/C2D.inc: euclideanSquaredDistance", "share/ulam/stdlib/C2D.inc: dot", "share/ulam/stdlib/C2D.inc: clamp", "share/ulam/stdlib/C2D.inc: contains", "share/ulam/stdlib/C2D.inc: neighbor", "share/ulam/stdlib/C2D.inc: corner", "share/ulam/stdlib/C2D.ulam: C2DT"]}
{"id": "C101", "title": "Template parameters get the arguments written for them", "statement": "In the definition of a class template the parameters have different names, and after a parameter with a default value all have one; a definition is accepted exactly then. An instance with k arguments is accepted exactly when k is at most the number of parameters and all parameters after the k-th have default values; then the i-th parameter has the i-th argument, and those without argument their default values. It makes no difference whether the template is defined before or after the place where the instance is written. The value of an argument is what its expression means where it is written; that of a default value what it means in the template, the parameters of this instance first; each value is converted to the type of its parameter. Values that exist are found without an error however the default values refer to one another, no assertion fails, and no argument gets another value.", "quantifier": "all lists of parameters, all token lists of arguments, all constant expressions, all orders in which constants become known", "why_tests_cant": "The bindings depend on the numbers of parameters, defaults and arguments, on whether the template has been parsed yet, and on the loop in which constants become ready one after the other; tests use a few small templates.", "anchors": ["src/ulam/Parser.cpp: Parser::parseClassArguments", "src/ulam/Parser.cpp: Parser::parseRestOfClassArguments", "src/ulam/Parser.cpp: Parser::parseRestOfClassParameters", "src/ulam/SymbolClassNameTemplate.cpp: SymbolClassNameTemplate::fixAnyUnseenClassInstances", "src/ulam/SymbolClassNameTemplate.cpp: SymbolClassNameTemplate::fixAClassStubsDefaultArgs", "src/ulam/Resolver.cpp: Resolver::constantFoldNonreadyClassArgs"]}
{"id": "C102", "title": "Angles between sites and square roots are true", "statement": "MDist.acuteAngle gives the whole degrees of the angle between the directions of two sites, for all pairs of sites of the event window, the same both ways and 0 if one is the origin. (This does not hold for sites in exactly opposite directions that are not along an axis: 179 in place of 180.) MDist.angleCW gives the angle clockwise: there and back is 360 unless the directions are the same or opposite. MDist.sqrt32 gives the whole part of 32 times the square root for all of its arguments. No subscript fails for the sites of the window.", "quantifier": "all pairs of site numbers 0 to 40, all arguments of sqrt32", "why_tests_cant": "The answers stand in a table of 780 octal escapes that a program wrote; nobody compares them with the geometry, and a wrong one looks like any other.", "anchors": ["share/ulam/stdlib/MDist.ulam: acuteAngle", "share/ulam/stdlib/MDist.ulam: angleCW", "share/ulam/stdlib/MDist.ulam: sqrt32", "share/ulam/stdlib/MDist.ulam: cSiteNumsToAngleArray", "share/ulam/stdlib/MDist.ulam: cUnsigned6To32TimesSqrt"]}
{"id": "C103", "title": "Colours are mixed, brightened and dimmed as documented", "statement": "A colour made from a number has the four bytes of the number. between gives, for red, green and blue, the whole part of the weighted mean, which lies between the two; more than 100 percent are 100; nothing saturates or wraps on the way. dimmer makes every channel smaller that is not 0, brighter every channel greater that is not 255, and dimmer takes brighter back but for rounding; repeated they end at black and at white. (Some of the documented promises do not hold: between at 0 percent keeps the alpha of the first colour; brighter of black has alpha 0 while that of all other colours is 255; brighter of pure blue is not pure.)", "quantifier": "all colours, all percentages, any number of repetitions", "why_tests_cant": "There are 2^32 colours and pairs of them; the widths of the intermediate results decide whether something saturates, and the exceptions are single values.", "anchors": ["share/ulam/stdlib/ColorUtils.ulam: color", "share/ulam/stdlib/ColorUtils.ulam: between", "share/ulam/stdlib/ColorUtils.ulam: modify", "share/ulam/stdlib/ColorUtils.ulam: brighter", "share/ulam/stdlib/ColorUtils.ulam: dimmer"]}
{"id": "C104", "title": "A declared size is the size of the type", "statement": "When a type is written with a bit size in parentheses or a variable with a number of items in brackets, the constant is either accepted, and then the type has exactly that size (for a Bool the next smaller odd one, with a warning), or refused with an error. A bit size is accepted exactly from 1 to 64, for Bits to 8192; a number of items exactly if it is a number, not negative, and all items have at most 8192 bits. Data members are accepted exactly under the documented rules: elements and transients only in transients, numbers and quarks of at most 64 bits, arrays of quarks of at most 71.", "quantifier": "For all base types, all constants of every kind, width and bit pattern, all conversions of the runtime library that keep values that fit, all class types and member types.", "why_tests_cant": "A constant has up to 2^64 values in several encodings, and the wrong sizes come up only for some of them: above 32 bits, at -2, for strings.", "anchors": ["src/ulam/NodeTypeBitsize.cpp: NodeTypeBitsize::getTypeBitSizeInParen", "src/ulam/NodeTypeDescriptor.cpp: NodeTypeDescriptor::resolveTypeBitsize", "src/ulam/NodeSquareBracket.cpp: NodeSquareBracket::getArraysizeInBracket", "src/ulam/NodeTypeDescriptorArray.cpp: NodeTypeDescriptorArray::resolveTypeArraysize", "src/ulam/NodeVarDeclDM.cpp: NodeVarDeclDM::checkDataMemberSizeConstraints", "src/ulam/Parser.cpp: Parser::parseTypeBitsize", "src/ulam/CompilerState.cpp: CompilerState::setSizesOfNonClassAndArrays"]}
{"id": "C105", "title": "Uses of a template with the same arguments are one class", "statement": "Every use of a class template in the source gets a type index of its own. However uses and rounds of instantiation follow each other, no assertion fails; two uses that have become classes are the same class exactly if their argument values are the same; the index of a use then leads to the class by its alias and by its key; a use that has become a class stays that class; a round that complains about nothing leaves no use unresolved, and a use whose arguments and bases are known is a class after the next round. (The complaint about circular templates is a guess from counting: a round without anything circular complains only if a type index above 100 has at least a tenth of it as uses with the same arguments; and then it does complain though every use is resolved.)", "quantifier": "all sequences of uses and rounds, all argument values, all orders in which arguments and bases become known", "why_tests_cant": "The order in which stubs are resolved depends on the whole program, and the count that triggers the error on the number of types in it; test programs are small.", "anchors": ["src/ulam/SymbolClassNameTemplate.cpp: SymbolClassNameTemplate::fullyInstantiate", "src/ulam/SymbolClassNameTemplate.cpp: SymbolClassNameTemplate::findClassInstanceByArgString", "src/ulam/SymbolClassNameTemplate.cpp: SymbolClassNameTemplate::addClassInstanceByArgString", "src/ulam/CompilerState.cpp: CompilerState::mergeClassUTI", "src/ulam/CompilerState.cpp: CompilerState::replaceUTIKeyAndAlias"]}
{"id": "C106", "title": "The command line means what it says", "statement": "A command line of switches and class names in the form of the usage is taken as it is meant: -i directories and classes in their order, UrSelf before them, each class file with the suffix .ulam once, whether it was written or not, output in the directory of -o or in the current one; nothing else is compiled, and no command line has undefined behaviour. A source file is read from the first of the current directory, the -i directories and the library that has it; output never goes elsewhere. (The check for a missing argument comes before the argument is counted: -o at the end is ignored and the output goes to the current directory, -i at the end makes a string of a null pointer.)", "quantifier": "all lists of arguments, all file systems", "why_tests_cant": "The combinations of switches and files are unbounded; which of several files with one name is read depends on all directories before it.", "anchors": ["src/drivers/culam/main.cpp: main", "src/drivers/culam/main.cpp: AddClassName", "src/drivers/culam/main.cpp: EndsWith", "src/drivers/culam/main.cpp: SetOutputDir", "src/ulam/FileManagerStdio.cpp: FileManagerStdio::open"]}
{"id": "C107", "title": "A telomere colony grows to its size and no further", "statement": "An atom with a Telomere can be duplicated until it is too old. In whatever order the atoms of a colony are duplicated, with free destinations or not, the colony that one new atom started never has more than 2^(2^width - 1) atoms, and has exactly so many when none of them can be duplicated any more; dup says false only for a destination that is not free, and changes nothing then. (The documentation says 2^(2^(width-1)), which is right for width 1 only.)", "quantifier": "all widths from 1 to 32, all sequences of calls", "why_tests_cant": "The sequences of calls are unbounded, and the colony for width 6 already has 2^63 atoms.", "anchors": ["share/ulam/misc/Telomere.ulam: dup", "share/ulam/misc/Telomere.ulam: Telomere"]}
{"id": "C108", "title": "Operators on objects call the function of that operator", "statement": "An operator written before, between or after operands, the first of which is an object, is a call of the function of exactly that operator, with the right operand, nothing (before) or 1 (after) as its argument; two different operators or places never end in the same call. Assigning an object or an atom to an object calls operator= if the family of the class has a function of that name that takes the operand, and copies otherwise; indexing calls operator[] if the family has it, then the custom array, and is refused otherwise. While a class that may still turn out to have the function is unknown, neither is decided. The logical and/or of an object is refused, and no operator makes the compiler assert.", "quantifier": "all operators in all places, all inheritance graphs, all assignments of operator functions to classes", "why_tests_cant": "There are over thirty node classes, each with its own name and rules; a wrong name in one of them calls another function only for classes that define both, and the outcome of = and [] depends on the whole family.", "anchors": ["src/ulam/Node.cpp: Node::buildOperatorOverloadFuncCallNodeHelper", "src/ulam/NodeBinaryOp.cpp: NodeBinaryOp::checkAndLabelType", "src/ulam/NodeBinaryOp.cpp: NodeBinaryOp::buildandreplaceOperatorOverloadFuncCallNode", "src/ulam/NodeBinaryOpEqual.cpp: NodeBinaryOpEqual::replaceOurselves", "src/ulam/NodeBinaryOpEqual.cpp: NodeBinaryOpEqual::buildOperatorOverloadFuncCallNodeForMatchingArg", "src/ulam/NodeSquareBracket.cpp: NodeSquareBracket::buildOperatorOverloadFuncCallNode", "src/ulam/NodeUnaryOp.cpp: NodeUnaryOp::checkAndLabelType", "src/ulam/Parser.cpp: Parser::makeAssignExprNode"]}
{"id": "C109", "title": "Saving and restoring an event window brings back exactly what was saved", "statement": "Saving an event window up to a radius ends with the wanted layers kept, or fails, exactly if the atoms are wanted and a site within the radius cannot be reached. Restoring it under the same symmetry then brings back every atom within the radius and the base atom, of the layers that were wanted, whatever became of the window in between, and changes nothing else. A buffer in which nothing was saved changes nothing. Under another symmetry the atoms come back turned.", "quantifier": "all windows, all contents before and after, all radii, layers and symmetries", "why_tests_cant": "It relates the window at two moments with anything between them, for every placement of the atoms, every radius and every symmetry; a test tries a few windows and one symmetry.", "anchors": ["share/ulam/stdlib/EventWindowBuffer.ulam:save", "share/ulam/stdlib/EventWindowBuffer.ulam:restore", "share/tcc/stdlib/Uq_10109211EventWindow10_native.tcc:Uf_4aref", "share/tcc/stdlib/Uq_1010919SiteUtils10_native.tcc:Uf_7setBase"]}
{"id": "C110", "title": "printf writes its format with each argument in its place", "statement": "printf of a byte stream writes the format in order: every byte but % as it is, %% as one %, and for each conversion the next argument: x, b, o and d a number, c a byte, s a string. For Int, Unsigned and Bits the number is the one the argument stands for. If there are too few arguments, the last % stands alone, or an argument does not suit its conversion, everything before it is written and then the event fails; the arguments are never read beyond their end. Arguments too many are not looked at. A call hands over all arguments in their order, with an end mark; references are refused. (Not so: a Unary of more than 1 and a Bool of more than one bit come out as the pattern of their bits; a format that holds a zero byte is cut there; the variable of an as-conditional passes the check and aborts code generation.)", "quantifier": "all formats, all lists of arguments of all types and bit patterns, all string pools", "why_tests_cant": "Formats and argument lists are unbounded, and what goes wrong depends on how the two fit: which conversion meets which type, width and pattern.", "anchors": ["share/tcc/stdlib/Uq_10109216ByteStreamWriter10_native.tcc: Uf_6printf", "share/tcc/stdlib/Uq_10109210ByteStream10_native.tcc: Uf_6printf", "src/ulam/NodeFunctionCall.cpp: NodeFunctionCall::genRestOfFunctionArgs", "src/ulam/NodeFunctionCall.cpp: NodeFunctionCall::checkAndLabelType"]}
{"id": "C111", "title": "Files give back what was written to them", "statement": "Text written to a file that is open for writing is added behind what is there, all of it, with 0 as the answer, and a file opened for reading gives back every byte it holds, 255 and 0 included, then -1; looking at the next byte does not take it. Numbers come out in the digits that say them, and fit the buffers they are printed in. Files of the wrong mode and closed files are not changed and answer with a negative number. Reading and extending need the file to exist, writing empties it, appending keeps it, and no other file changes; what is put into the memory manager is got from it again. (Not so: on disk a text is cut behind its first byte above 127; an unsigned number of 2^31 or more has a minus sign, right modulo 2^32; reading a closed file looks like its end; extending overwrites a file on disk; bytes behind a zero are lost by add, and get makes a file that is not there.)", "quantifier": "all contents, all texts, all sequences of looking and taking, all numbers, all paths and sets of files", "why_tests_cant": "The generated code is all written through these functions; a byte or number that comes out wrong depends on values that the few files of a test do not hold.", "anchors": ["src/ulam/File.cpp: File::write", "src/ulam/File.cpp: File::peek", "src/ulam/File.cpp: File::consume", "src/ulam/File.cpp: File::write_decimal_unsigned", "src/ulam/FileString.cpp: FileString::read", "src/ulam/FileStdio.cpp: FileStdio::write", "src/ulam/FileManagerString.cpp: FileManagerString::open", "src/ulam/FileManagerString.cpp: FileManagerString::add", "src/ulam/FileManagerString.cpp: FileManagerString::get", "src/ulam/FileManagerStdio.cpp: FileManagerStdio::open"]}
{"id": "C112", "title": "The core elements act with the odds they document", "statement": "In every event the outcomes of a regulator (DReg) have probabilities that add up to 1. It is never lost: next to an empty site it moves there, leaving a regulator behind with odds of one in pDREG_CREATE, and if not, a resource with odds of one in pRES_CREATE; next to anything but a regulator it erases that with odds of one in pANY_DESTROY and otherwise leaves it alone. A resource and a wall neither make nor destroy atoms, and a resource moves just into empty sites; an aggregate (DLA) takes resources only; two events of an FX bring everything back. (Not so: an adjacent regulator is erased with odds of one in pDREG_DESTROY as documented; when that fails it is erased like anything else, so with the defaults 109 times in 1000 instead of 100.)", "quantifier": "all positive parameters, all atoms", "why_tests_cant": "Odds show only in frequencies; a test of a few events cannot tell 100 in 1000 from 109, nor show that an atom is never lost.", "anchors": ["share/ulam/core/DReg.ulam: behave", "share/ulam/core/Res.ulam: behave", "share/ulam/core/Wall.ulam: Wall", "share/ulam/demos/DLA/DLA.ulam: behave", "share/ulam/demos/ForkBombs/ForkBomb.ulam: behave", "share/ulam/demos/SimpleMotions/FX.ulam: behave", "share/ulam/stdlib/Random.ulam: oneIn"]}
{"id": "C113", "title": "Element parameters keep their defaults and are used as variables", "statement": "The default of an element's parameter is exactly the number written, kept in the bits of its type; a number that the type cannot hold, or a type of more than 32 bits, is an error, and nothing saturates or aborts. Bits keep the bits written, Bools the truth of what was written, and Bits or truth values are refused as numbers. Since a parameter can be changed while the program runs, whether it may be used where another type is wanted never depends on the default: a use is accepted just if a variable of the type would be, and so, between numbers, just if every value it can be changed to is kept. (Not so: a Unary whose ones are not its last bits, given to Bits, may lose a one without an error.)", "quantifier": "all types, sizes, defaults and later values", "why_tests_cant": "A use that is accepted because of the default goes wrong only after the parameter is changed at run time, which compiler tests never do.", "anchors": ["src/ulam/NodeModelParameterDef.cpp: NodeModelParameterDef::checkAndLabelType", "src/ulam/NodeModelParameterDef.cpp: NodeModelParameterDef::foldConstantExpression", "src/ulam/NodeModelParameter.cpp: NodeModelParameter::safeToCastTo", "src/ulam/SymbolWithValue.cpp: SymbolWithValue::getValue", "src/ulam/SymbolWithValue.cpp: SymbolWithValue::setValue", "src/ulam/NodeConstant.cpp: NodeConstant::updateConstant"]}
{"id": "C114", "title": "Animals starve, eat and breed as hunger says", "statement": "An animal grows hungrier by one each event and starves at the event that takes its hunger to 127, when it and the empty sites around become resources and all else stays. Before that, a plant next to it is eaten: if its energy stills the hunger there are two animals of hunger 63, otherwise the animal moves there, less hungry by that energy. It moves into empty sites and leaves anything else alone. So without plants an animal of hunger h starves at its 127 - h th event, whatever it meets, and over any life without breeding hunger gained is events less energy eaten. Plants turn resources, and nothing else, into plants.", "quantifier": "all windows, hungers, energies and lives", "why_tests_cant": "The balance of the demonstration shows over hundreds of events; a single wrong step would show in none of the few that a test runs.", "anchors": ["share/ulam/demos/PredatorPrey/Animal.ulam: behave", "share/ulam/demos/PredatorPrey/Plant.ulam: behave"]}
{"id": "C115", "title": "A trigger must be armed before it is pulled, and a fire must rest before it burns again", "statement": "A trigger is safe, armed or pulled; arming moves only a safe one, pulling only an armed one. A burning element fires at an event just if it has recovered and been pulled; then it pulls every armed trigger near, changes nothing else near and starts to recover. After it has fired it does not fire for 64 events, however often it is pulled, and then fires at the first event after a pull. A spark fires at its next event.", "quantifier": "all states, counters, neighbours and rows of pulls", "why_tests_cant": "That waves of fire do not run backwards rests on the pause after each firing, over every way the neighbours may pull in between.", "anchors": ["share/ulam/demos/Burn/Trigger.ulam: doArm", "share/ulam/demos/Burn/Trigger.ulam: doPull", "share/ulam/demos/Burn/SimpleBurn.ulam: behave", "share/ulam/demos/ForkBombs/Evaporator.ulam: behave"]}

{"id": "C01", "title": "Variable-length unsigned integers round-trip", "statement": "Appending any 32-bit unsigned number to a byte buffer as a varuint32 and later decoding at that position with the module decoder returns exactly that number and leaves the decoder positioned on the first byte after the encoding, whatever bytes precede or follow it.", "quantifier": "every 32-bit value, every preceding and following byte sequence", "why_tests_cant": "2^32 values times unbounded surroundings; the carry between 7-bit groups and the 32-bit shift cut-off only matter at specific boundaries", "anchors": ["util/include/Ab/VarInt.hpp:append_varuint", "core/src/ab-core-Loading.cpp:Decoder::read_varu"]}
{"id": "C02", "title": "Varuint encodings are minimal, self-delimiting and unique", "statement": "The varuint32 encoding of a 32-bit number has between 1 and 5 bytes and is the shortest LEB128 encoding of it; exactly its last byte has the continuation bit clear; no encoding is a proper prefix of another; different numbers have different encodings.", "quantifier": "every pair of 32-bit values", "why_tests_cant": "a statement about all pairs of 2^32 values", "anchors": ["util/include/Ab/VarInt.hpp:append_varuint"]}
{"id": "C03", "title": "Decoding an unsigned number is total and bounded", "statement": "For every byte span and position the decoder's varu32 read either returns the LEB128 value of the bytes it consumed (at most five, reduced modulo 2^32) and advances past exactly these bytes, or reports a decode error because the span ended or the number had more than five bytes; it never reads outside the span.", "quantifier": "every byte span and every position inside it", "why_tests_cant": "all byte strings; truncated and over-long inputs are adversarial", "anchors": ["core/src/ab-core-Loading.cpp:Decoder::read_varu", "core/src/ab-core-Loading.cpp:Decoder::read"]}
{"id": "C04", "title": "Decoding a signed number is well defined and sign-extends", "statement": "For every byte span the decoder's vari32 and vari7 reads return the two's-complement signed LEB128 value of the bytes consumed, with no undefined shift, or report a decode error.", "quantifier": "every byte span", "why_tests_cant": "undefined shifts happen only for certain final bytes and lengths and cannot be observed by comparing outputs on one platform", "anchors": ["core/src/ab-core-Loading.cpp:Decoder::read_vari"]}
{"id": "C05", "title": "Stream LEB128 readers decode what LEB128 defines", "statement": "Reading from a stream positioned at the standard (signed or unsigned) LEB128 encoding of a 64-bit number returns that number and consumes exactly the encoding (signed numbers: those with an encoding of at most nine bytes), with no undefined shift; fixed-width reads take exactly their width or report an error.", "quantifier": "every 64-bit value, every encoding length, every stream content", "why_tests_cant": "needs all 2^64 values and all truncations; over-long and truncated input is exactly what examples do not contain", "anchors": ["util/include/Ab/leb128.hpp:leb128", "util/include/Ab/leb128.hpp:uleb128", "util/include/Ab/leb128.hpp:ReaderInput"]}
{"id": "C06", "title": "A byte buffer behaves as a growable byte sequence", "statement": "After any sequence of append, write, read, resize, reserve, shrink_to_fit, clear, copy and move operations a ByteBuffer contains exactly the bytes a plain sequence would contain, its capacity is at least its size, every access is inside the owned allocation, and each allocation is freed exactly once.", "quantifier": "every finite sequence of operations with every argument", "why_tests_cant": "histories of arbitrary length; memory errors such as double free are invisible to value-comparing tests", "anchors": ["util/include/Ab/ByteBuffer.hpp:ByteBuffer"]}
{"id": "C07", "title": "Writing a module and compiling it gives the module back", "statement": "For every module description (function types, functions with a type index, a register count and an instruction list) that fits the format, compiling the bytes produced by the module writer succeeds and yields a module with the same types in the same order and, for each function in order, the same type, register count and instruction bytes.", "quantifier": "every list of types and functions, of any length and content within the format's limits", "why_tests_cant": "unbounded modules; section sizes nest and cross varuint length boundaries", "anchors": ["core/include/Ab/ModuleWriter.hpp:ModuleWriter", "core/include/Ab/ModuleBuilder.hpp:ModuleNode", "core/src/ab-core-Loading.cpp:compile"]}
{"id": "C08", "title": "Compiling arbitrary bytes terminates without touching memory outside them", "statement": "For every byte span, compile terminates and either returns a module, reports a decode error or stops the process, reading only bytes of the span.", "quantifier": "every byte string", "why_tests_cant": "all byte strings, adversarial ones included", "anchors": ["core/src/ab-core-Loading.cpp:compile", "core/src/ab-core-Loading.cpp:Decoder"]}
{"id": "C09", "title": "A compiled module is internally consistent", "statement": "Compile accepts exactly the byte strings of the module grammar and returns the module the grammar says; each function of it refers to a type of the module, its code starts inside the module's bytes, its register count is the declared local count plus the slots of its arguments, and type and function sections occupy exactly the bytes their headers declare.", "quantifier": "every accepted byte string", "why_tests_cant": "all accepted byte strings", "anchors": ["core/src/ab-core-Loading.cpp:decode_code_section", "core/src/ab-core-Loading.cpp:decode_type_section", "core/src/ab-core-Loading.cpp:decode_func_section", "core/include/Ab/Module.hpp:Module"]}
{"id": "C10", "title": "Running generated arithmetic code computes the reference result", "statement": "Calling, through static_call, a function built from nop, i32.add and x32.return instructions returns the value given by evaluating the instructions on a register file whose first registers are the arguments, addition being modulo 2^32, provided no addition overflows the signed range (undefined in C++).", "quantifier": "every instruction list, every register assignment, every argument tuple", "why_tests_cant": "unbounded programs and all 32-bit arguments", "anchors": ["core/src/ab-core-Interpreter.cpp.jinja:do_interpret", "core/include/Ab/VirtualMachine.hpp:static_call", "core/include/Ab/ModuleBuilder.hpp:FuncNode"]}
{"id": "C11", "title": "Each instruction changes only what it names", "statement": "Executing one instruction changes only its destination register and the instruction pointer: i32.add and i32.sub write one register with the sum or difference, goto/goto_if/goto_unless move the instruction pointer to the next instruction plus the signed offset exactly when the condition holds, nop moves to the next instruction, and nothing else in the stack or the machine state changes.", "quantifier": "every machine state, every instruction with every operand", "why_tests_cant": "all states of a 2 KiB stack and 256 register indices", "anchors": ["core/src/ab-core-Interpreter.cpp.jinja:do_interpret", "core/include/Ab/Opcode.hpp.jinja"]}
{"id": "C12", "title": "static_call leaves the caller's machine state intact", "statement": "When static_call returns normally, the stack pointer, instruction pointer and function pointer are what they were before the call and every stack byte above the caller's stack pointer is unchanged, for every callee that only names registers of its own frame.", "quantifier": "every callee, caller state and argument tuple", "why_tests_cant": "all programs and all stack contents", "anchors": ["core/include/Ab/VirtualMachine.hpp:static_call", "core/src/ab-core-Interpreter.cpp.jinja:enter_native_frame", "core/src/ab-core-Interpreter.cpp.jinja:leave_native_frame"]}
{"id": "C13", "title": "The interpreter may be entered recursively", "statement": "Entering the interpreter from native code while another native frame is active behaves as entering it at top level: the inner call returns to its native caller with its result and the outer activation is unaffected.", "quantifier": "every nesting of activations, every address at which code may be loaded", "why_tests_cant": "depends on the numeric addresses at which code is loaded, which a test run does not control", "anchors": ["core/src/ab-core-Interpreter.cpp.jinja:do_return", "core/src/ab-core-Interpreter.cpp.jinja:do_x32_return", "core/include/Ab/Interpreter.hpp.jinja:FrameTag", "core/include/Ab/VirtualMachine.hpp:enter_native_frame"]}
{"id": "C14", "title": "Frames stay inside the interpreter stack", "statement": "No sequence of native-frame entries, register accesses and calls writes outside the interpreter's stack allocation.", "quantifier": "every register count, every nesting depth, every operand byte", "why_tests_cant": "depends on register counts declared in untrusted modules", "anchors": ["core/src/ab-core-Interpreter.cpp.jinja:Interpreter", "core/src/ab-core-Interpreter.cpp.jinja:enter_native_frame", "core/src/ab-core-Interpreter.cpp.jinja:reg_at"]}
{"id": "C15", "title": "Argument and result slots are laid out without overlap", "statement": "For every list of value types the slots given to successive arguments are consecutive, disjoint, in order and together exactly fill the argument registers of the function type; storing a tuple of arguments and reading it back at the same types returns the tuple.", "quantifier": "every list of I32/I64/F32/F64 types and every value tuple", "why_tests_cant": "unbounded type lists", "anchors": ["core/include/Ab/Types.hpp:nth_slot_index", "core/include/Ab/VirtualMachine.hpp:set_stack_elements", "core/include/Ab/VirtualMachine.hpp:get_stack_elements", "core/include/Ab/Types.hpp:FuncType"]}
{"id": "C16", "title": "static_call checks the signature before touching anything", "statement": "A static_call whose C++ argument or result types do not map one to one onto the callee's declared types aborts before the machine state is modified, and a call whose types do map is never rejected.", "quantifier": "every C++ type list and every declared signature", "why_tests_cant": "unbounded pairs of type lists", "anchors": ["core/include/Ab/Types.hpp:types_match", "core/include/Ab/VirtualMachine.hpp:static_call"]}
{"id": "C17", "title": "Function types and limits: equality is structural and hash agrees with it", "statement": "Comparing two function types says equal exactly when their argument lists and result lists are equal element by element; equality is an equivalence; equal types, and equal limits, have equal hashes.", "quantifier": "every pair of types and limits", "why_tests_cant": "unbounded lists", "anchors": ["core/include/Ab/Types.hpp:FuncType", "core/include/Ab/Types.hpp:Limits"]}
{"id": "C18", "title": "Linear memory grows within its limits and never moves", "statement": "Starting from any configuration with min <= max whose byte size fits the machine word, any sequence of grow and shrink requests, interleaved with anything the rest of the process does elsewhere, keeps the page count between min and max, makes exactly the first page_count pages accessible, never moves the base address, refuses a growth beyond max without changing anything, touches no page outside the reservation, and destruction unmaps exactly the reservation. Construction either delivers min accessible pages in a fresh reservation or reports an error.", "quantifier": "every configuration and every request sequence", "why_tests_cant": "unbounded histories and 64-bit counts where unsigned subtraction can wrap", "anchors": ["core/include/Ab/LinearMemory.hpp:LinearMemory"]}
{"id": "C19", "title": "An intrusive list holds exactly the registered elements", "statement": "After any sequence of add and remove of distinct elements, walking the list from the front visits exactly the elements added and not removed, most recently added first, each once, and walking backwards from any element retraces it; each operation touches only the nodes of its argument and its neighbours.", "quantifier": "every sequence of additions and removals", "why_tests_cant": "pointer structures over unbounded histories", "anchors": ["util/include/Ab/IntrusiveList.hpp:IntrusiveList", "core/include/Ab/VirtualMachine.hpp:Context"]}
{"id": "C20", "title": "Labels resolve to the offset they were placed at", "statement": "Every allocated label has a fresh identity; once placed, its target is the offset given and never changes; placing a label twice, or asking for the target of an unplaced or unknown label, aborts.", "quantifier": "every sequence of label operations", "why_tests_cant": "unbounded histories", "anchors": ["core/include/Ab/Label.hpp:LabelTable"]}
{"id": "C21", "title": "Symbol interning is a bijection between names and symbols", "statement": "Interning the same name always gives the same symbol, different names give different symbols, the symbol's string is the name that was interned, and interning more names never changes earlier answers.", "quantifier": "every sequence of interned names", "why_tests_cant": "unbounded histories and all strings", "anchors": ["edn/include/Ab/Edn/Ir.hpp:SymbolTable"]}
{"id": "C22", "title": "Offsets map to the right line and column", "statement": "For a text scanned from its start, with a break recorded after each newline, line(offset) is the number of newlines strictly before the offset and column(offset) the distance from the last one, for every offset (also past the end); the search terminates and never indexes outside the break table.", "quantifier": "every text and every offset", "why_tests_cant": "all texts; the binary search's unsigned indices and the last-line case", "anchors": ["parse/include/Ab/Parse/LineInfo.hpp:LineInfo"]}
{"id": "C23", "title": "Node equality is a structural equivalence", "statement": "On nodes without sets and NaNs whose maps have keys free of maps, sets and characters, node equality always answers, is an equivalence, and holds exactly when the two values have the same kind and contents, sequences element by element and maps regardless of the order of their entries.", "quantifier": "every pair of such nodes, of any depth, every iteration order of the maps and every std::hash", "why_tests_cant": "unbounded recursive structures", "anchors": ["edn/include/Ab/Edn/Ir.hpp:node_eq"]}
{"id": "C24", "title": "Equal nodes have equal hashes", "statement": "Two equal nodes that contain no map have the same hash, whatever std::hash is, and every node without maps, sets and characters can be hashed.", "quantifier": "every pair of map-free nodes", "why_tests_cant": "unbounded trees; map iteration order is not fixed by the language", "anchors": ["edn/include/Ab/Edn/Ir.hpp:node_hash"]}
{"id": "C25", "title": "Lexer tokens tile the text", "statement": "Repeatedly asking the lexer for tokens ends after at most one token per character with the end token; the tokens' source ranges are non-empty, in increasing order, inside the text, separated only by spaces, tabs, commas, newlines and comments, and each is the longest match at its start, of the first kind that matches; when the lexer stops before the end of the text, no token starts there. (Numbers outside the machine range are C65, C66.)", "quantifier": "every text", "why_tests_cant": "all texts", "anchors": ["edn/src/ab-edn-lexer.cpp.rl"]}
{"id": "C26", "title": "Integer literals have their decimal value", "statement": "The value of an integer token is the decimal value of its text, sign included, for every literal of value -(2^63-1) .. 2^63-1.", "quantifier": "every integer literal in that range, in every text", "why_tests_cant": "unbounded digit strings and the overflow boundary", "anchors": ["edn/src/ab-edn-lexer.cpp.rl:parse_integer"]}
{"id": "C27", "title": "Text that is not EDN is reported", "statement": "When the text contains characters that do not form a token, or an unterminated string, parsing reports an error rather than treating the rest of the text as absent.", "quantifier": "every text", "why_tests_cant": "all malformed texts", "anchors": ["edn/src/ab-edn-lexer.cpp.rl", "edn/src/ab-edn-parser.cpp"]}
{"id": "C28", "title": "Parsing terminates on every token sequence", "statement": "Parsing any text terminates, after consuming every token at most once, with a tree or an error log.", "quantifier": "every token sequence", "why_tests_cant": "non-termination on some input cannot be excluded by finitely many runs", "anchors": ["edn/src/ab-edn-parser.cpp"]}
{"id": "C29", "title": "Parsing well-formed text builds the tree it denotes and logs nothing", "statement": "For every list of EDN trees with pairwise different map keys and every text that writes them (any white space and comments between the words), parsing gives nodes showing exactly these trees, map entries in any order, an empty error log, and leaves the numbers of known symbols unchanged. Conversely, a parse that returns a document with an empty log had tokens that spell exactly one list of trees, and the document shows these trees.", "quantifier": "every tree, every layout, every earlier content of the symbol table", "why_tests_cant": "unbounded nesting", "anchors": ["edn/src/ab-edn-parser.cpp", "edn/src/ab-edn-lexer.cpp.rl"]}
{"id": "C30", "title": "Persistent vectors: appending is a pure operation", "statement": "Appending to a persistent vector of at most 2^30 elements returns a vector with all the earlier elements at their positions and the new one last, and assigning one vector to another variable makes it show the same elements, while every other vector still shows exactly its own elements; at(i) returns element i for every i below the size. None of this ever aborts or touches freed memory.", "quantifier": "every history of construction, append, assignment between different variables and destruction of any number of vectors; every element type and index", "why_tests_cant": "unbounded sizes crossing every radix-4 level boundary and sharing between versions", "anchors": ["util/include/Ab/Vector.hpp:Vec"]}
{"id": "C31", "title": "Persistent vectors free each node exactly when nothing refers to it", "statement": "After any history of vector operations (no variable being assigned to itself), a node is in memory exactly if it can be reached from a live vector, and its reference count is the number of references to it; in particular nothing is left in memory when no vector is alive.", "quantifier": "every history of construction, append, assignment between different variables and destruction", "why_tests_cant": "reference counts over sharing structures and histories", "anchors": ["util/include/Ab/Vector.hpp:Vec", "util/include/Ab/Rc.hpp"]}
{"id": "C32", "title": "Iterating a persistent vector visits its elements", "statement": "Iterating from begin to end, or with foreach, visits elements 0 .. size-1 in order, each exactly once, and nothing else.", "quantifier": "every size", "why_tests_cant": "sizes at block boundaries", "anchors": ["util/include/Ab/Vector.hpp:Iter", "util/include/Ab/Vector.hpp:foreach"]}
{"id": "C33", "title": "Reference-counted pointers keep objects alive exactly while referenced", "statement": "After any sequence of construction, copy, assignment, move (also of a handle to itself), clearing and destruction of Rc handles, in variables and in the counted objects themselves, where no assignment's source is its destination or is reached through it: nothing freed is ever used; every handle refers to what it should; each object's count equals the number of handles to it; and an object is in memory exactly while there is a handle to it.", "quantifier": "every history of handle operations, every shape of the object graph, cycles included", "why_tests_cant": "histories, aliasing and cascades of deletions", "anchors": ["util/include/Ab/Rc.hpp:Rc", "util/include/Ab/Rc.hpp:decref", "util/include/Ab/PtrLike.hpp:operator->"]}
{"id": "C34", "title": "Assigning an optional value replaces it", "statement": "After assigning one Maybe to another they hold the same thing: nothing if the source held nothing, otherwise an equal value; the replaced value is destroyed once.", "quantifier": "every pair of states and every value", "why_tests_cant": "a law over all states", "anchors": ["util/include/Ab/Maybe.hpp:Maybe", "util/include/Ab/MaybeStorage.hpp:MaybeStorage"]}
{"id": "C35", "title": "S-expression output reads back", "statement": "For every sequence of start, end, atom and newline requests with atoms that are non-empty and contain no whitespace or parentheses, reading the formatter's output (parentheses, longest atoms, whitespace skipped) gives back exactly the requested parentheses and atoms in order, in only one way; no space follows an opening parenthesis, neighbouring atoms on a line are separated by one space, and closing parentheses are never preceded by added space.", "quantifier": "every request sequence", "why_tests_cant": "unbounded sequences; layout state machine", "anchors": ["util/include/Ab/Sexpr.hpp:Formatter", "util/include/Ab/Indent.hpp:Indent"]}
{"id": "C36", "title": "The integer hash is a bijection", "statement": "The 64-bit integer hash maps different integers to different hashes and reaches every 64-bit integer; mixing is injective in each argument; hashing several integers together, changing exactly one of them changes the result.", "quantifier": "all 2^64 integers", "why_tests_cant": "2^128 pairs", "anchors": ["util/include/Ab/HashUtilities.hpp:hash", "util/include/Ab/HashUtilities.hpp:mix_hash"]}
{"id": "C37", "title": "Power-of-two size arithmetic agrees with ordinary arithmetic", "statement": "For every exponent below the word size, multiplying, dividing and taking the remainder by a SizeP2 equals doing so with the number 2^exponent (modulo the word size); get, modmask and mod2 are 2^exponent, 2^exponent - 1 and its parity. An exponent of 64 or more makes every operator undefined.", "quantifier": "every exponent and every word", "why_tests_cant": "64-bit domain", "anchors": ["util/include/Ab/SizeP2.hpp:SizeP2"]}
{"id": "C38", "title": "The shared lock excludes conflicting holders", "statement": "At no time do two threads hold the lock exclusively, nor one exclusively while another holds it shared.", "quantifier": "every schedule of lock and unlock requests", "why_tests_cant": "schedules", "anchors": ["util/include/Ab/SharedLock.hpp:SharedLock", "util/include/Ab/LockGuard.hpp:LockGuard"]}
{"id": "C39", "title": "Module storage is released exactly once", "statement": "However module storage is created, moved and destroyed, its deleter is called exactly once, with the original address, after the last owner is gone, and not at all if there is no address or deleter: at every point the calls made and the storage still held are together the storage created.", "quantifier": "every history of moves and destructions", "why_tests_cant": "ownership histories", "anchors": ["core/include/Ab/Module.hpp:ModuleStorage"]}
{"id": "C40", "title": "Reading back an instruction list reports the instructions written", "statement": "Decoding the bytes written for an instruction list consisting of the operand-free instructions the reader supports (unreachable, nop, halt) reports the same instructions in the same order and stops at the end of the list.", "quantifier": "every such instruction list", "why_tests_cant": "unbounded lists", "anchors": ["core/include/Ab/ModuleReader.hpp:InstructionListReader", "core/include/Ab/ModuleWriter.hpp:CodeWriter"]}
{"id": "C41", "title": "Command lookup follows the documented order", "statement": "`ab <cmd>` looks for a file ab-<cmd> in the directories listed (colon separated) in AB_PATH, then in AB_HOME/bin, then in those listed in PATH; it finds the file in the first of these directories that has it, every component of a list being tried, empty ones included, and finds nothing if none has it. The search always ends with an answer.", "quantifier": "every command name, every environment and every directory content", "why_tests_cant": "all strings and all directory contents", "anchors": ["ab/src/ab-main.cpp:find_file_in_search_path", "ab/src/ab-main.cpp:find_cmd"]}
{"id": "C42", "title": "Span and string-span comparisons", "statement": "Spans are equal exactly when they start at the same place and have the same length; span '<' is a strict order that is only true when every byte of one is before every byte of the other, and is true whenever there is a gap between them. A string span equals a C string exactly when it has the same bytes. Comparing never reads outside the spans.", "quantifier": "all spans and strings", "why_tests_cant": "all byte strings and address pairs", "anchors": ["util/include/Ab/StringSpan.hpp", "util/include/Ab/Span.hpp"]}
{"id": "C43", "title": "Malformed stream numbers are reported", "statement": "Reading a LEB128 number from a stream reports a bad number when the encoding is longer than the number type allows or the stream ends inside it.", "quantifier": "every stream content", "why_tests_cant": "over-long and truncated input is exactly what examples do not contain", "anchors": ["util/include/Ab/leb128.hpp:leb128", "util/include/Ab/leb128.hpp:uleb128"]}
{"id": "C44", "title": "The signed stream reader covers all 64-bit numbers", "statement": "Reading the ten-byte signed LEB128 encoding of a 64-bit number returns that number with no undefined shift.", "quantifier": "every 64-bit value outside the nine-byte range", "why_tests_cant": "undefined shifts are not observable by comparing outputs on one platform", "anchors": ["util/include/Ab/leb128.hpp:leb128"]}
{"id": "C45", "title": "Numbers that do not fit are rejected", "statement": "Decoding a varu32 whose LEB128 value is 2^32 or more reports a decode error.", "quantifier": "every five-byte encoding", "why_tests_cant": "2^35 encodings", "anchors": ["core/src/ab-core-Loading.cpp:Decoder::read_varu"]}
{"id": "C46", "title": "A byte buffer may be emptied and used again", "statement": "Shrinking, resizing to zero or releasing the span of an empty byte buffer, constructing one with capacity zero and copying one without storage leave buffers that can be appended to and destroyed, and hand the caller only memory that is still allocated.", "quantifier": "every history of operations", "why_tests_cant": "memory errors such as double free are invisible to value-comparing tests", "anchors": ["util/include/Ab/ByteBuffer.hpp:resize_capacity", "util/include/Ab/ByteBuffer.hpp:grow_capacity", "util/include/Ab/ByteBuffer.hpp:shrink_to_fit"]}
{"id": "C47", "title": "A byte buffer may be appended to itself", "statement": "Appending a buffer to itself doubles its contents, whatever its capacity.", "quantifier": "every buffer state", "why_tests_cant": "the use after free depends on capacity and is often silent", "anchors": ["util/include/Ab/ByteBuffer.hpp:append"]}
{"id": "C48", "title": "Out-of-range buffer accesses abort", "statement": "A read or write whose range is not inside the buffer's contents aborts instead of touching other memory.", "quantifier": "every offset and length", "why_tests_cant": "2^64 offsets; the wrap-around cases", "anchors": ["util/include/Ab/ByteBuffer.hpp:write", "util/include/Ab/ByteBuffer.hpp:reinterpret"]}
{"id": "C49", "title": "Malformed modules are reported by an error the caller can catch", "statement": "Compiling bytes that are not a module file throws a decode error.", "quantifier": "every byte string that is not a module file", "why_tests_cant": "adversarial inputs; the failing ones need particular section codes, sizes and indices", "anchors": ["core/src/ab-core-Loading.cpp:compile", "core/src/ab-core-Loading.cpp:Decoder::reposition", "core/include/Ab/Module.hpp:type_for"]}
{"id": "C50", "title": "Register operands that do not fit are refused", "statement": "Writing an instruction whose register operand does not fit its one-byte field is refused, so different descriptions never give the same file.", "quantifier": "every operand of every instruction", "why_tests_cant": "operands of 256 and more are not written in small examples", "anchors": ["core/include/Ab/ModuleWriter.hpp:CodeWriter", "core/include/Ab/ModuleBuilder.hpp:I32AddNode"]}
{"id": "C51", "title": "Every accepted module has one function per declared entry and valid references", "statement": "Whenever compile returns a module, it has as many functions as the function section has entries, code sections have their declared size, and the functions' references to types stay valid, whatever the order and number of sections.", "quantifier": "every accepted byte string", "why_tests_cant": "depends on section order and repetition, which a writer never produces", "anchors": ["core/src/ab-core-Loading.cpp:decode_code_section", "core/src/ab-core-Loading.cpp:compile"]}
{"id": "C52", "title": "Reading an instruction list terminates", "statement": "Reading back any written instruction list terminates.", "quantifier": "every instruction list", "why_tests_cant": "non-termination on an instruction that the examples do not use", "anchors": ["core/include/Ab/ModuleReader.hpp:InstructionListReader"]}
{"id": "C53", "title": "Arguments of 64 bits are stored at aligned addresses", "statement": "Calling a function with 64-bit arguments stores and reads each of them at an address suitably aligned for its C++ type, whatever the order of the arguments and the register count.", "quantifier": "every signature and register count", "why_tests_cant": "misaligned accesses are undefined but usually silent on the developer's machine", "anchors": ["core/include/Ab/VirtualMachine.hpp:set_stack_element", "core/include/Ab/Types.hpp:nth_slot_offset_v"]}
{"id": "C54", "title": "SizeP2::pow raises to a power", "statement": "pow(n) of a SizeP2 is the n-th power of the size whenever that fits the machine word.", "quantifier": "every exponent and every n", "why_tests_cant": "two integers; the existing uses happen to hit the coincidental cases", "anchors": ["util/include/Ab/SizeP2.hpp:SizeP2::pow"]}
{"id": "C55", "title": "Shrinking linear memory gives pages back", "statement": "Shrinking a linear memory by n pages, n at most the page count, reduces the page count by n and makes those pages inaccessible.", "quantifier": "every memory state and every n", "why_tests_cant": "every state and argument", "anchors": ["core/include/Ab/LinearMemory.hpp:LinearMemory", "util/include/Ab/Page.hpp:Page"]}
{"id": "C56", "title": "Linear memory size never exceeds its maximum size", "statement": "For every linear memory, size() is at most max_size(), both being in bytes.", "quantifier": "every configuration and history", "why_tests_cant": "a unit confusion only visible when the two are compared", "anchors": ["core/include/Ab/LinearMemory.hpp:LinearMemory", "util/include/Ab/Page.hpp:Page"]}
{"id": "C57", "title": "Linear memory is released once", "statement": "However a LinearMemory is constructed, copied and destroyed, its pages are unmapped once, when the last object referring to them is gone.", "quantifier": "every history of copies and destructions", "why_tests_cant": "the damage hits unrelated mappings made in between", "anchors": ["core/include/Ab/LinearMemory.hpp:LinearMemory", "util/include/Ab/Page.hpp:Page"]}
{"id": "C58", "title": "Linear memory limits may be arbitrarily large", "statement": "For every configuration with min <= max, whatever the size of max, growing a memory never changes the protection of pages outside its own reservation.", "quantifier": "every configuration", "why_tests_cant": "only configurations whose byte size wraps around 2^64 misbehave", "anchors": ["core/include/Ab/LinearMemory.hpp:LinearMemory", "util/include/Ab/Page.hpp:Page"]}
{"id": "C59", "title": "A failed construction leaves nothing behind", "statement": "If constructing a LinearMemory throws, no page stays mapped on its behalf.", "quantifier": "every configuration and every failing system call", "why_tests_cant": "needs a system call to fail at one particular point", "anchors": ["core/include/Ab/LinearMemory.hpp:LinearMemory", "util/include/Ab/Page.hpp:Page"]}
{"id": "C60", "title": "The context list holds the existing contexts", "statement": "Creating and destroying contexts of a virtual machine in any order, each destroyed while it lives and none moved, is well defined; iterating the machine's context list visits exactly the contexts that exist, newest first; every context has an interpreter stack of its own, and no other stack is left allocated.", "quantifier": "every history of context creations and destructions", "why_tests_cant": "histories of arbitrary length and order", "anchors": ["core/include/Ab/VirtualMachine.hpp:Context", "util/include/Ab/IntrusiveList.hpp:IntrusiveList"]}
{"id": "C61", "title": "A context can be moved", "statement": "Move-constructing a context from another and destroying both is well defined, and the context list then names the live object.", "quantifier": "every context, every state of the context list", "why_tests_cant": "the copied pointers look right until an unrelated operation follows them or both destructors have run", "anchors": ["core/include/Ab/VirtualMachine.hpp: Context", "core/include/Ab/Interpreter.hpp.jinja: Interpreter", "core/src/ab-core-Interpreter.cpp.jinja: Interpreter::~Interpreter", "util/include/Ab/IntrusiveList.hpp: IntrusiveList"]}
{"id": "C62", "title": "Any two nodes can be compared", "statement": "Node equality is reflexive and structural for every node, including sets, NaNs and maps used as map keys.", "quantifier": "every node", "why_tests_cant": "all node trees", "anchors": ["edn/include/Ab/Edn/Ir.hpp:node_eq", "edn/include/Ab/Edn/Ir.hpp:Map"]}
{"id": "C63", "title": "Any node can be hashed consistently with equality", "statement": "Equal nodes, including maps, hash equal, and every node can be hashed.", "quantifier": "every node", "why_tests_cant": "all node trees and iteration orders", "anchors": ["edn/include/Ab/Edn/Ir.hpp:node_hash"]}
{"id": "C64", "title": "Node maps are finite maps", "statement": "After any sequence of insertions into an empty map, looking up a key gives the value first inserted under an equal key, or nothing if there was none, and no two entries have equal keys.", "quantifier": "every sequence of insertions with keys free of maps, sets, characters and NaNs, and every placement of entries by the hash table", "why_tests_cant": "all histories and iteration orders", "anchors": ["edn/include/Ab/Edn/Ir.hpp:Map"]}
{"id": "C65", "title": "Integer literals out of range are rejected", "statement": "An integer literal that does not fit the machine integer is reported as an error; the smallest machine integer is accepted.", "quantifier": "every integer literal", "why_tests_cant": "Literals are unbounded; the boundary is one value out of 2^64.", "anchors": ["edn/src/ab-edn-lexer.cpp.rl parse_integer"]}
{"id": "C66", "title": "Real literals denote the nearest double", "statement": "A real literal is read as the double nearest to its decimal value, and reading it never has undefined behaviour.", "quantifier": "every real literal", "why_tests_cant": "The set of literals is infinite; rounding errors depend on the digits.", "anchors": ["edn/src/ab-edn-lexer.cpp.rl parse_real"]}
{"id": "C67", "title": "Line and column of every offset after lexing", "statement": "After all tokens of a text have been read, the line table gives, for every offset, the number of newlines before it and the distance from the last one, provided the whole text was tokens and blanks and no token contains a newline.", "quantifier": "every text and every offset", "why_tests_cant": "Depends on every newline of the text being recorded exactly once, in order.", "anchors": ["edn/src/ab-edn-lexer.cpp.rl on_newline", "parse/include/Ab/Parse/LineInfo.hpp LineInfo"]}
{"id": "C68", "title": "Line numbers after multi-line strings", "statement": "Line and column are also right after strings that contain newlines.", "quantifier": "every text and every offset", "why_tests_cant": "Same as C67.", "anchors": ["edn/src/ab-edn-lexer.cpp.rl string"]}
{"id": "C69", "title": "A string literal ends at its closing quote", "statement": "A string literal ends at the first quote that is not escaped.", "quantifier": "every text", "why_tests_cant": "The lexer prefers the longest match, so what follows the string matters.", "anchors": ["edn/src/ab-edn-lexer.cpp.rl str_char, str_escape, string"]}
{"id": "C70", "title": "Keywords are read as keywords", "statement": "Parsing a keyword gives a keyword node.", "quantifier": "every keyword", "why_tests_cant": "all keyword texts", "anchors": ["edn/src/ab-edn-parser.cpp:parse_keyword"]}
{"id": "C71", "title": "Mistaken brackets are reported in the error log", "statement": "When brackets do not match, parsing returns a document whose error log is not empty.", "quantifier": "every text", "why_tests_cant": "all token sequences", "anchors": ["edn/src/ab-edn-parser.cpp", "edn/include/Ab/Edn/Error.hpp"]}
{"id": "C72", "title": "Duplicate map keys are reported", "statement": "Parsing a well-bracketed text whose map keys contain no maps leaves the error log empty exactly when no map in it repeats a key.", "quantifier": "every such text", "why_tests_cant": "all maps, including nested ones, and all hash functions", "anchors": ["edn/src/ab-edn-parser.cpp:parse_map"]}
{"id": "C73", "title": "A persistent vector can grow", "statement": "A persistent vector can be appended to as long as there is memory for it.", "quantifier": "every number of appends", "why_tests_cant": "sizes above 2^30", "anchors": ["util/include/Ab/Vector.hpp:cons", "util/include/Ab/Vector.hpp:capacity"]}
{"id": "C74", "title": "Assigning a persistent vector to itself is harmless", "statement": "v = v leaves v and everything else as it was.", "quantifier": "every history", "why_tests_cant": "needs the reference count of the root to be one", "anchors": ["util/include/Ab/Vector.hpp:operator="]}
{"id": "C75", "title": "Any handle can be assigned to any other", "statement": "x = y, x = x and x = x->next make x refer to what the right-hand side referred to, whatever the handles are.", "quantifier": "every history and every pair of handles", "why_tests_cant": "needs particular reference counts and aliasing", "anchors": ["util/include/Ab/Rc.hpp:operator="]}
{"id": "C76", "title": "No leaks", "statement": "When no handle is left in a variable, every counted object has been destroyed.", "quantifier": "every history", "why_tests_cant": "all object graphs", "anchors": ["util/include/Ab/Rc.hpp:Rc"]}
{"id": "C77", "title": "ab runs the command it was given", "statement": "`ab [--] <cmd> <args>...` executes the program found for <cmd> with <cmd> as its name and <args> as its arguments, or reports an unknown command; and nothing else makes ab execute a program.", "quantifier": "every command line, environment and directory content", "why_tests_cant": "all command lines", "anchors": ["ab/src/ab-main.cpp:main", "ab/src/ab-main.cpp:run_cmd"]}
{"id": "C78", "title": "ab-run loads exactly the file named", "statement": "ab-run loads a file exactly when its arguments are one file name not starting with a dash, or -- and one file name; it loads that file, and for every other command line prints help or an error naming the offending argument.", "quantifier": "every command line", "why_tests_cant": "all command lines", "anchors": ["run/src/ab-run-main.cpp:main"]}
{"id": "C79", "title": "ab-asm reads its input file", "statement": "ab-asm [--] <abt> [<abx>] reads the file <abt>.", "quantifier": "every command line", "why_tests_cant": "all command lines", "anchors": ["asm/src/ab-asm-main.cpp:main"]}
{"id": "C80", "title": "S-expression lines are indented by depth", "statement": "An atom or opening parenthesis written at the start of a line is indented by two spaces per open parenthesis.", "quantifier": "every request sequence", "why_tests_cant": "unbounded nesting", "anchors": ["util/include/Ab/Sexpr.hpp:Formatter", "util/include/Ab/Indent.hpp:Indent"]}
{"id": "C81", "title": "Strings written to s-expressions can be read back", "statement": "The quoted text made from a string determines the string, also when other text follows it.", "quantifier": "every string and every following text", "why_tests_cant": "all strings", "anchors": ["util/include/Ab/Sexpr.hpp:stringify"]}
{"id": "C82", "title": "A span that ends where another begins is before it", "statement": "Span '<' is true whenever every byte of the left span is before every byte of the right one ('True if this entire Span is lower in memory than the rhs').", "quantifier": "all pairs of spans", "why_tests_cant": "all address pairs", "anchors": ["util/include/Ab/Span.hpp:operator<"]}
{"id": "C83", "title": "Equal string spans have the same bytes", "statement": "Two string spans are equal exactly when they have the same length and bytes.", "quantifier": "all byte strings", "why_tests_cant": "all byte strings", "anchors": ["util/include/Ab/StringSpan.hpp:operator=="]}
{"id": "C84", "title": "String span compare is a total order", "statement": "The sign of compare is a total order on byte strings (the lexicographic one), 0 exactly for equal strings.", "quantifier": "all byte strings", "why_tests_cant": "all byte strings", "anchors": ["util/include/Ab/StringSpan.hpp:compare"]}
{"id": "C85", "title": "A Maybe of a pointer holds what it was given", "statement": "A Maybe made from a pointer holds that pointer, copies hold the same, and assigning replaces.", "quantifier": "every pointer", "why_tests_cant": "all states", "anchors": ["util/include/Ab/MaybeStorage.hpp:MaybeStorage"]}
{"id": "C86", "title": "Reading a WebAssembly module reports exactly what is in it", "statement": "For a well-formed binary module made of type, import, function, global, export, element, code and data sections, the Reader calls the visitor once per entry, in order, with the values that were encoded (any padding of LEB128 numbers included), with section start and end around them, and makes no other call; it never fails.", "quantifier": "every list of sections, every entry, every allowed spelling, every visitor that takes the code of a body", "why_tests_cant": "unboundedly many modules and spellings", "anchors": ["core/include/Ab/Wasm/Reader.hpp:module", "core/include/Ab/Wasm/Reader.hpp:section", "core/include/Ab/Wasm/Reader.hpp:type_section", "core/include/Ab/Wasm/Reader.hpp:import_section", "core/include/Ab/Wasm/Reader.hpp:data_segment", "util/include/Ab/leb128.hpp:uleb128"]}
{"id": "C87", "title": "A wrong header is refused", "statement": "If the input does not begin with the magic number and version 1, the Reader throws InvalidHeader and reports nothing but the start of the module.", "quantifier": "every input", "why_tests_cant": "all byte strings", "anchors": ["core/include/Ab/Wasm/Reader.hpp:header", "core/include/Ab/Wasm/Reader.hpp:magic", "core/include/Ab/Wasm/Reader.hpp:version"]}
{"id": "C88", "title": "A truncated module is reported as an error", "statement": "An input that ends in the middle of a header, number, entry or section makes the Reader throw rather than invent contents.", "quantifier": "every truncation of every module", "why_tests_cant": "all truncation points", "anchors": ["core/include/Ab/Wasm/Reader.hpp:uint", "core/include/Ab/Wasm/Reader.hpp:function_section", "util/include/Ab/leb128.hpp:ReaderInput"]}
{"id": "C89", "title": "Table, memory and start sections are read", "statement": "A well-formed module with a table, memory or start section is read without an error.", "quantifier": "every module with such a section", "why_tests_cant": "all modules", "anchors": ["core/include/Ab/Wasm/Reader.hpp:table_section", "core/include/Ab/Wasm/Reader.hpp:memory_section", "core/include/Ab/Wasm/Reader.hpp:start_section"]}
{"id": "C90", "title": "Custom sections are skipped", "statement": "After a custom section the Reader goes on with the section that follows it.", "quantifier": "every name, every payload, everything that follows", "why_tests_cant": "all custom sections", "anchors": ["core/include/Ab/Wasm/Reader.hpp:custom_section", "core/include/Ab/Wasm/Reader.hpp:section"]}
{"id": "C91", "title": "Reading ends on every input", "statement": "Whatever the bytes, reading a module ends after finitely many steps, normally, with an exception or with the end of the process; for inputs without nine bytes above 127 in a row no behaviour is undefined.", "quantifier": "every byte string; both the no-op visitor and ab-disasm's", "why_tests_cant": "all inputs, including malicious ones", "anchors": ["core/include/Ab/Wasm/Reader.hpp:sections", "core/include/Ab/Wasm/ExprReader.hpp:ExprReader", "disasm/src/ab-disasm-main.cpp:function_body"]}
{"id": "C92", "title": "A string of any announced length is safe", "statement": "Reading a string whose announced length is absurd throws; it does not touch memory outside the buffer.", "quantifier": "every announced length", "why_tests_cant": "extreme lengths", "anchors": ["core/include/Ab/Wasm/Reader.hpp:string"]}
{"id": "C93", "title": "An unknown opcode is reported as a reader error", "statement": "A byte that is not an opcode where an instruction is expected makes the Reader throw.", "quantifier": "every such byte, every continuation", "why_tests_cant": "all bytes", "anchors": ["core/include/Ab/Wasm/ExprReader.hpp:ExprReader", "core/include/Ab/Wasm/OpCode.hpp.jinja:opDispatch"]}
{"id": "C94", "title": "Instructions are read back exactly", "statement": "A sequence of well-formed instructions, read with its size in bytes, is reported one expression each with the encoded immediates, and exactly its bytes are consumed.", "quantifier": "every sequence of instructions, every immediate, every allowed spelling (memory.size/grow, conversions and ten-byte constants: C95, C44)", "why_tests_cant": "unboundedly many sequences", "anchors": ["core/include/Ab/Wasm/ExprReader.hpp:ExprReader", "core/include/Ab/Wasm/Expression.hpp"]}
{"id": "C95", "title": "memory.size, memory.grow and the conversions are read", "statement": "Every instruction of the format, including memory.size, memory.grow (with their reserved byte) and the conversions (opcodes 0xa7 to 0xbf), is read and reported.", "quantifier": "each of these instructions after every sequence of other instructions", "why_tests_cant": "all contexts", "anchors": ["data/wasm_operators.yaml", "core/include/Ab/Wasm/Expression.hpp"]}
{"id": "C96", "title": "ab-disasm prints every correct module", "statement": "ab-disasm disassembles a correct module with functions to its end.", "quantifier": "every correct module with one function body", "why_tests_cant": "all modules", "anchors": ["disasm/src/ab-disasm-main.cpp:function_body"]}
{"id": "C97", "title": "ab-disasm copes with a code section without function section", "statement": "Function bodies that no function section announced are refused by ab-disasm.", "quantifier": "every module with a code section and no function entries", "why_tests_cant": "all such modules", "anchors": ["disasm/src/ab-disasm-main.cpp:function_body"]}
{"id": "C98", "title": "Disassembly is balanced", "statement": "The text ab-disasm prints for a module it accepts has balanced parentheses.", "quantifier": "every accepted input", "why_tests_cant": "all inputs", "anchors": ["disasm/src/ab-disasm-main.cpp:WastPrinter", "core/include/Ab/Wasm/Printing.hpp", "util/include/Ab/Sexpr.hpp"]}
{"id": "C99", "title": "Disassembly prints numbers in decimal", "statement": "Indices, limits and constants are printed as decimal numbers.", "quantifier": "every module and number", "why_tests_cant": "all numbers", "anchors": ["core/include/Ab/Wasm/Printing.hpp:operator<<", "util/include/Ab/Sexpr.hpp:operator<<"]}
{"id": "C100", "title": "Function types are printed faithfully", "statement": "For a module of type and function sections the text reads as (module (func (param ...) (result ...)) ...), one per type in order, and two such modules with the same text have the same types.", "quantifier": "every list of type and function sections in every spelling", "why_tests_cant": "all modules of this kind", "anchors": ["core/include/Ab/Wasm/Printing.hpp:print(FunctionType)", "disasm/src/ab-disasm-main.cpp:function_type"]}
{"id": "C101", "title": "All targets of br_table are printed", "statement": "The printed br_table shows every target and the default.", "quantifier": "every br_table in every module", "why_tests_cant": "all target lists", "anchors": ["core/include/Ab/Wasm/Printing.hpp:print(BranchTable)"]}
{"id": "C102", "title": "Instructions are indented by block depth", "statement": "In a function each instruction is on its own line, indented two spaces per enclosing block; else and end align with their block.", "quantifier": "every sequence of instructions in a function", "why_tests_cant": "all nestings", "anchors": ["core/include/Ab/Wasm/Printing.hpp:ExprPrinter", "util/include/Ab/Indent.hpp"]}
{"id": "C103", "title": "Printed data determines the data", "statement": "Modules that differ only in the contents of their data segment are printed differently.", "quantifier": "every pair of modules with one data segment", "why_tests_cant": "all byte strings", "anchors": ["core/include/Ab/Wasm/Printing.hpp:print(DataSegment)"]}
{"id": "C104", "title": "Printed data is a string of the text format", "statement": "The string printed for a data segment, read as a string literal of the WebAssembly text format, stands for the segment's bytes.", "quantifier": "every data segment", "why_tests_cant": "all byte strings", "anchors": ["core/include/Ab/Wasm/Printing.hpp:print(DataSegment)"]}
{"id": "C105", "title": "Standard output holds only the disassembly", "statement": "Without -o standard output receives exactly the text; with -o the file receives exactly the text and standard output nothing.", "quantifier": "every accepted module and configuration", "why_tests_cant": "all modules", "anchors": ["disasm/src/ab-disasm-main.cpp:main", "core/include/Ab/Wasm/Printing.hpp:print(LocalEntry)"]}
{"id": "C106", "title": "ab-disasm honours its command line", "statement": "Any number of options in any order, then optionally -- and the input file: the last -o, the flags and the file are used; --help and --version win over what follows.", "quantifier": "every command line of this shape", "why_tests_cant": "all argument lists", "anchors": ["disasm/src/ab-disasm-main.cpp:parseArguments"]}
{"id": "C107", "title": "ab-disasm reports wrong command lines", "statement": "A -o without a file name and an unknown option are reported.", "quantifier": "every command line ending in -o or with an unknown option after its options", "why_tests_cant": "all argument lists", "anchors": ["disasm/src/ab-disasm-main.cpp:parseArguments"]}
{"id": "C108", "title": "Which texts are single tokens", "statement": "A text is lexed as one token covering all of it exactly when it is spelled as one: nil, true, false; a bracket; an optionally signed integer without leading zeros, with its value; an optionally signed real with a fraction, an exponent or both; a name or two names joined by a slash (symbol), optionally after a colon (keyword); characters other than the two quotes, or escapes of t, n, r, backslash and the quotes, between double quotes (string).", "quantifier": "every text", "why_tests_cant": "The set of texts is infinite; a dropped character class shows only on texts that use it.", "anchors": ["edn/src/ab-edn-lexer.cpp.rl 150-352"]}
{"id": "C109", "title": "EDN symbols are symbol tokens", "statement": "Every symbol of the EDN format is read as one symbol token.", "quantifier": "every EDN symbol", "why_tests_cant": "The set of symbols is infinite.", "anchors": ["edn/src/ab-edn-lexer.cpp.rl 191-214"]}
{"id": "C110", "title": "EDN strings are string tokens", "statement": "Every string of the EDN format is read as one string token.", "quantifier": "every EDN string", "why_tests_cant": "The set of strings is infinite.", "anchors": ["edn/src/ab-edn-lexer.cpp.rl 185-189"]}
{"id": "C111", "title": "Tokens and locations of a WebAssembly text", "statement": "Lexing a WebAssembly text whose end is announced gives exactly the parentheses, names and identifiers of the text, in order, up to the first character that begins none of them; each carries the offset, line and column of its first character and of the character after its last, and pointers to them; no run is undefined.", "quantifier": "every text shorter than 2^31 - 1 characters, wherever it lies", "why_tests_cant": "Texts are unbounded, and line and column depend on everything before a token.", "anchors": ["wast/src/ab-wast-Lexer.cpp.rl 14-103", "wast/include/Ab/Wast/Lexer.hpp Lexer", "wast/include/Ab/Wast/Location.hpp"]}
{"id": "C112", "title": "Lexing in pieces of one buffer", "statement": "Calling lex on consecutive pieces of one buffer, announcing the end with the last, leaves the lexer in the same state with the same tokens as one call on the whole buffer.", "quantifier": "every text and every way to cut it into pieces", "why_tests_cant": "The cuts may fall anywhere, in the middle of words and of line ends.", "anchors": ["wast/src/ab-wast-Lexer.cpp.rl 107-116", "wast/include/Ab/Wast/Lexer.hpp Lexer::lex"]}
{"id": "C113", "title": "Lexing in pieces of several buffers", "statement": "The pieces of a text given to lex may be in different buffers, as when a file is read block by block.", "quantifier": "every text, every way to cut it and every placement of the pieces", "why_tests_cant": "Whether it goes wrong depends on where the cut falls.", "anchors": ["wast/src/ab-wast-Lexer.cpp.rl 66-116", "wast/include/Ab/Wast/Lexer.hpp Lexer::lex"]}
{"id": "C114", "title": "Comments and strings", "statement": "Comments are skipped and strings are read as tokens.", "quantifier": "every text with comments or strings", "why_tests_cant": "The texts are unbounded.", "anchors": ["wast/src/ab-wast-Lexer.cpp.rl 42-54 long_comment, short_comment, string"]}
{"id": "C115", "title": "Text that is not WebAssembly is reported", "statement": "A text with a character that begins no token gives an error, by an error token or otherwise.", "quantifier": "every such text", "why_tests_cant": "All texts with such a character must be covered.", "anchors": ["wast/src/ab-wast-Lexer.cpp.rl 66-99 main", "wast/include/Ab/Wast/Lexer.hpp TokenKind::ERROR"]}
{"id": "C116", "title": "The last token is not lost", "statement": "A text lexed with the default arguments, as FunctionParser::parse does, gives all its tokens.", "quantifier": "every text", "why_tests_cant": "Whether a token is lost depends on how the text ends.", "anchors": ["wast/include/Ab/Wast/Lexer.hpp Lexer::lex", "wast/src/ab-wast-FunctionParser.cpp.rl.jinja FunctionParser::parse"]}
{"id": "C117", "title": "Module bytes are released once, when nothing needs them", "statement": "Whatever handles to compiled modules are copied, moved, assigned and dropped and whatever instances are made and deleted, the deleter given with the bytes of a module is called exactly once, when the last handle and the last instance of that module is gone or when compile throws, and every function of a live instance stays usable.", "quantifier": "all histories of compile (with valid and rejected bytes), copies, moves, assignments and drops of handles, instantiate and delete of instances", "why_tests_cant": "The moment of release depends on the whole history of owners; tests try a few orders.", "anchors": ["core/include/Ab/Loading.hpp: compile, instantiate", "core/include/Ab/Module.hpp: ModuleStorage, Module, ModuleInst", "core/include/Ab/Func.hpp: FuncInst", "core/src/ab-core-Loading.cpp: compile"]}
{"id": "C118", "title": "The virtual machine owns the instances", "statement": "Module instances are owned by the VM: destroying the VM destroys every instance made in it, and so releases the modules that only instances referred to.", "quantifier": "all histories of compile, instantiate, drops and deletes, followed by the end of the VM", "why_tests_cant": "A leak shows only in the histories where the caller relies on the promise.", "anchors": ["core/include/Ab/Loading.hpp: instantiate", "core/include/Ab/VirtualMachine.hpp: VirtualMachine::modules_"]}
{"id": "C119", "title": "A result holds exactly what was stored in it", "statement": "A Result made from ok(v) is OK and gives v, one made from err(e) is an error and gives e, copies and moves give the same, the wrong accessor asserts, and every stored value and error is destroyed exactly once, when its result ends.", "quantifier": "all value and error types, all histories of constructing, copying, moving, assigning the same kind and ending results", "why_tests_cant": "Double destruction and leaks depend on the sequence of operations and on the types.", "anchors": ["util/include/Ab/Result.hpp: Result, ok, err", "util/include/Ab/SafeDestructor.hpp: SafeDestructor"]}
{"id": "C120", "title": "Assignment replaces what a result holds", "statement": "After r = ok(v) or r = err(e) the result holds just that, whatever it held before, which has been destroyed.", "quantifier": "all value and error types, all histories that assign either kind over either kind", "why_tests_cant": "Assigning over the other kind goes wrong only for types with constructors or destructors.", "anchors": ["util/include/Ab/Result.hpp: Result::operator="]}
{"id": "C121", "title": "ab-asm lists the tokens of its input", "statement": "Given a non-empty file it can map, ab-asm prints one line for each token of the text, in order, with line, column and offset of both ends, from which the places can be read back, and exits with status 0; a file it cannot open, examine or map gives a message and status 1; in each case every descriptor and mapping it made is released.", "quantifier": "all file systems, names, file contents below 2 GiB and sets of open descriptors that include standard input", "why_tests_cant": "Contents, and the failures of system calls, are unbounded combinations.", "anchors": ["asm/src/ab-asm-main.cpp: Input::open, Input::close, go, main", "wast/include/Ab/Wast/Lexer.hpp: formatter<Location>"]}
{"id": "C122", "title": "ab-asm reads every readable file", "statement": "ab-asm accepts every regular file that can be opened and whose pages can be mapped.", "quantifier": "all regular files, all sets of open descriptors", "why_tests_cant": "The exceptions depend on the length of the file and on the environment the program is started in.", "anchors": ["asm/src/ab-asm-main.cpp: Input::open"]}
{"id": "C123", "title": "ab-asm assembles", "statement": "ab-asm writes the module that its input text denotes to the output file, and for a text that denotes none prints a message and exits with a status other than 0.", "quantifier": "all input texts", "why_tests_cant": "The claim ranges over all texts.", "anchors": ["asm/src/ab-asm-main.cpp: go, compile_file, main", "man/ab-asm.1", "help/src/ab-help-main.cpp: HELP_STRING"]}
{"id": "C124", "title": "ab-run executes a module", "statement": "ab-run executes the module in the file its command line names.", "quantifier": "all command lines and files", "why_tests_cant": "The claim ranges over all modules.", "anchors": ["run/src/ab-run-main.cpp: run_file", "core/src/ab-core-VirtualMachine.cpp: instantiate_file", "man/ab-run.1"]}
{"id": "C125", "title": "Disassembled instructions carry their names", "statement": "In the text that ab-disasm prints for a function, each instruction's line begins with the name that the WebAssembly text format gives the operator, for every operator of WebAssembly.", "quantifier": "every function body, every operator of the format", "why_tests_cant": "There are 172 operators and every sequence of them is a body.", "anchors": ["data/wasm_operators.yaml", "core/include/Ab/Wasm/OpCode.hpp.jinja OP_NAME", "core/include/Ab/Wasm/Printing.hpp ExprPrinter", "core/include/Ab/Wasm/ExprReader.hpp"]}
{"id": "C126", "title": "Imports and exports are listed", "statement": "ab-disasm prints for every import and every export of a module, in the order of the file, one line with its names in quotes, its kind, and its type or index (numbers as the character with that code, C99), and nothing else for a module that has only these.", "quantifier": "every list of imports and exports, every way the format allows to write them", "why_tests_cant": "Names, kinds, limits and types vary without bound.", "anchors": ["core/include/Ab/Wasm/Printing.hpp 96-197", "disasm/src/ab-disasm-main.cpp WastPrinter::import_entry, export_entry", "core/include/Ab/Sexpr.hpp Formatter"]}
{"id": "C127", "title": "Comparing tokens", "statement": "Two tokens of the EDN lexer can always be compared: == says whether they have the same kind, the same source range and, for integers, reals and booleans, the same value (reals as numbers); it is symmetric and transitive, and a token equals itself unless it holds a NaN. Tokens of any kind can be compared.", "quantifier": "every pair (and triple) of tokens, every value and range", "why_tests_cant": "Values and ranges are unbounded, and transitivity is about triples.", "anchors": ["edn/include/Ab/Edn/Token.hpp operator==, tok_*", "parse/include/Ab/Parse/Location.hpp operator=="]}
{"id": "C128", "title": "Printed tokens say which token it is", "statement": "The text that fmt or << gives for a token determines the token: its kind, its source range, and its value.", "quantifier": "every pair of tokens", "why_tests_cant": "Every integer and every pair of offsets must print differently.", "anchors": ["edn/include/Ab/Edn/DebugPrinting.hpp formatter<Token>, formatter<TokenKind>", "edn/include/Ab/Edn/Printing.hpp formatter<SrcRange>, formatter<SrcPos>"]}
{"id": "C129", "title": "The text of a source range", "statement": "strv of a source range is the piece of the buffer between its two offsets, and length is its length; a range that begins after the buffer is refused with an exception, one that ends after it is cut at its end, and one whose end is before its beginning gives everything from its beginning on.", "quantifier": "every buffer and every range of offsets", "why_tests_cant": "Offsets and buffers are unbounded; the subtraction wraps around.", "anchors": ["parse/include/Ab/Parse/Location.hpp SrcRange::strv, length", "edn/include/Ab/Edn/Token.hpp Token::strv"]}
{"id": "C130", "title": "Unknown sections are refused", "statement": "A section whose id is none of the twelve ids of the format makes the Reader throw InvalidSection.", "quantifier": "every module and every id", "why_tests_cant": "all numbers as ids", "anchors": ["core/include/Ab/Wasm/Reader.hpp Reader::sections", "section_code", "section"]}
{"id": "C131", "title": "Section lengths are checked", "statement": "A module with a section whose announced length is not the length of its contents is refused.", "quantifier": "every module and every announced length", "why_tests_cant": "all modules and all wrong lengths", "anchors": ["core/include/Ab/Wasm/Reader.hpp Reader::section"]}
{"id": "C132", "title": "Sections out of order are refused", "statement": "A module whose sections are not in the order of the format, or that has two of a kind, is refused.", "quantifier": "every module", "why_tests_cant": "all orders of all sections", "anchors": ["core/include/Ab/Wasm/Reader.hpp Reader::sections"]}
{"id": "C133", "title": "Indices out of range are refused", "statement": "An index that is not a 32-bit number is refused, not read as another one.", "quantifier": "every index of a function section", "why_tests_cant": "all numbers", "anchors": ["core/include/Ab/Wasm/Reader.hpp Reader::function_section"]}
{"id": "C134", "title": "A Box holds what was put into it and leaves its sources alone", "statement": "After any program of constructions, assignments and writes, each box reads as the value last put into it, and every variable or box that was used as a source without std::move still has its value.", "quantifier": "every value type, every program of constructions, assignments and writes over boxes and plain variables", "why_tests_cant": "all programs and all ways of naming the source", "anchors": ["util/include/Ab/Box.hpp Box::Box, Box::operator=, Box::operator()"]}
{"id": "C135", "title": "Byte units and bit counts are exact", "statement": "n bytes, KiB, MiB, GiB or TiB, as a literal or a function call, is n times 1, 2^10, 2^20, 2^30 or 2^40; popcount is the number of one bits.", "quantifier": "every number, every unit, every integer type", "why_tests_cant": "all numbers and widths", "anchors": ["util/include/Ab/Bytes.hpp kibibytes, mebibytes, gibibytes, tebibytes, popcount, ByteLiterals"]}
{"id": "C136", "title": "ab help and ab version", "statement": "Started through ab, with or without --, help without arguments lists every subcommand and succeeds, with one argument shows that manual page, with more fails and prints nothing on standard output; version prints the version and succeeds.", "quantifier": "every command line, environment and file system in which ab finds the programs", "why_tests_cant": "all environments and arguments", "anchors": ["help/src/ab-help-main.cpp main", "version/src/ab-version-main.cpp main", "ab/src/ab-main.cpp main"]}
{"id": "C137", "title": "The outcome of a call is decided by the callee's instructions alone", "statement": "For a call that starts properly (declared types, room on the stack, no or one 32-bit result) into code that names only registers of its own frame, whatever the code is otherwise: execute the instructions one by one on the argument words. The call returns the word v exactly if that execution arrives at an x32.return whose register holds v; it never returns exactly if the execution can always go on; an addition or subtraction beyond the signed 32-bit range, a byte that is no opcode, leaving the code, and ending without a word although one is expected are the only other endings, each with its own single consequence (undefined signed overflow, abort, out-of-bounds read, null read), and each happens exactly if the execution arrives there. The execution is deterministic, so a call has one outcome.", "quantifier": "all callees (any bytes), arguments, stack contents and bounds on the number of instructions", "why_tests_cant": "tests run particular functions and can never observe that a call does not return, nor exclude further outcomes", "anchors": ["core/src/ab-core-Interpreter.cpp.jinja: do_interpret", "core/include/Ab/VirtualMachine.hpp: static_call"]}
{"id": "C138", "title": "ab-disasm --verbose only adds comments", "statement": "Disassembling a module with --verbose prints what is printed without the option, with comment lines (starting with ;;) added and the indentation changed, and nothing else; the comments announce the sections of the file in its order, each by its name in the format with its length, and the numbers of types and imports; whether the run succeeds does not depend on the option.", "quantifier": "all input files ab-disasm can read, hence all sequences of sections with their entries, lengths and names", "why_tests_cant": "The comments are written by a formatter that decides line by line whether a new line is needed; that no comment ever swallows or breaks a line of the module depends on which sections follow each other and on the value of each section length.", "anchors": ["disasm/src/ab-disasm-main.cpp: WastPrinter::section_start, section_end, type_section, import_section, module_end", "core/include/Ab/Wasm/Printing.hpp: operator<<(Formatter&, const Section&)", "util/include/Ab/Sexpr.hpp: Formatter"]}
{"id": "C139", "title": "Names in a module are reported in full", "statement": "The names of exports and imports and the name of a custom section reach the visitor byte for byte as they are in the module, so that things with different names are reported under different names.", "quantifier": "all export sections and, after any well-formed sections, all import sections and last custom sections: any number of entries, any bytes in the names, any spelling of the numbers", "why_tests_cant": "It must hold for every byte a name may contain; the format allows all of them.", "anchors": ["core/include/Ab/Wasm/Reader.hpp: string, export_entry, import_entry, section"]}
{"id": "C140", "title": "A module file cut short is refused", "statement": "A module file that was cut short, as by a crash while it was written, is refused by compile.", "quantifier": "every module file and every length it is cut to", "why_tests_cant": "a test tries a few cuts of a few files; the crash can happen after any byte of any module", "anchors": ["core/src/ab-core-Loading.cpp: compile", "core/include/Ab/ModuleWriter.hpp: ModuleWriter"]}
{"id": "C141", "title": "Nodes are hashed, compared and looked up by contents, however they are shared", "statement": "node_hash, node_eq, Map::find and Map::insert depend on nothing but the values nodes stand for (all pointers followed): whether equal parts are one object or several, and what metadata they carry, makes no difference.", "quantifier": "all memories of nodes with pointers between them, all pairs of nodes in them; all histories of making and changing nodes for the condition on keys", "why_tests_cant": "Sharing patterns and histories of changes are unbounded, and the hashes kept in maps are only right as long as no history has touched a key.", "anchors": ["edn/include/Ab/Edn/Ir.hpp: node_eq, node_hash, NodeHash, NodeEq, NodeMap, List, Vector, Map"]}
{"id": "C142", "title": "A change of a node is seen wherever the node is, and nowhere else", "statement": "After set_value, set_id, push_back, assignment of an element, or insert on a node, every value the node is part of has the node's new value at each place where the node stood, and is otherwise as before; nodes that do not reach it keep value, hash and comparisons; set_metadata changes no value, hash or comparison.", "quantifier": "all memories of nodes, all changes, all nodes and all places in them", "why_tests_cant": "One node may be in any number of places of any number of other nodes.", "anchors": ["edn/include/Ab/Edn/Ir.hpp: set_value, set_id, push_back, at, Map::insert, set_metadata"]}
{"id": "C143", "title": "A map entry whose key was mutated is no longer retrievable", "statement": "As the documentation of Map says: if a key of a map is mutated, that entry is found by no key any more.", "quantifier": "all maps, all keys in them and contents they are changed to, all keys looked for", "why_tests_cant": "It must hold for every key one may look up afterwards.", "anchors": ["edn/include/Ab/Edn/Ir.hpp: class Map (comment), Map::find, Map::operator=="]}
{"id": "C144", "title": "Hashing and comparing nodes come to an end", "statement": "node_hash and node_eq return, or stop the process with an assertion, for all nodes.", "quantifier": "all memories of nodes, also with nodes inside themselves", "why_tests_cant": "Memories of nodes are unbounded graphs; ending is a claim about all of them.", "anchors": ["edn/include/Ab/Edn/Ir.hpp: node_eq, node_hash, push_back"]}
{"id": "C145", "title": "A node made with metadata has the value given", "statement": "Making a node with metadata gives a new node with that metadata and the value given, and changes no other node.", "quantifier": "all kinds of nodes, values and metadata", "why_tests_cant": "All values of all kinds.", "anchors": ["edn/include/Ab/Edn/Ir.hpp: constructors of Bool, Character, Integer, Real, Symbol, Keyword"]}
{"id": "C146", "title": "A parsed document is a forest of new nodes of its own", "statement": "Parsing puts new nodes into memory and touches none there were; each node of the document is at one place of it only, so that changing a node found at one place changes the document there and nowhere else; the nodes are those the text says, and all maps of the document can be searched.", "quantifier": "all texts (also those with mistakes), all symbol tables, all memories before, all orders of iteration of maps, all places and changes afterwards", "why_tests_cant": "Texts, places and changes are unbounded.", "anchors": ["edn/src/ab-edn-parser.cpp: parse, parse_node, parse_list, parse_vector, parse_map", "edn/include/Ab/Edn/Ir.hpp: construct, push_back, Map::insert"]}
{"id": "C147", "title": "Results of any number and type are the registers from the returned one on", "statement": "A call that is declared to have results (any number, 32-bit and 64-bit, integer and floating) and whose callee arrives at an x32.return naming register s returns the values whose 32-bit words stand in the registers from s on, in the order of the result types, the low word of a 64-bit value first; behind the callee's last register the words of the saved caller state follow. A 64-bit result that falls on an address that is no multiple of eight is undefined behaviour; ending without a word is a null read. The caller's machine is as before.", "quantifier": "all callees, argument and result type lists, values, register counts and stack contents", "why_tests_cant": "All combinations of result types, registers and frames cannot be enumerated.", "anchors": ["core/include/Ab/VirtualMachine.hpp: static_call, get_stack_elements", "core/include/Ab/Types.hpp: nth_slot_offset, slot_sizeof", "core/src/ab-core-Interpreter.cpp.jinja: x32_return"]}
{"id": "C148", "title": "The results of a call hold nothing but the callee's registers", "statement": "What a call returns depends only on the callee's registers: it never contains saved state of the caller or of the interpreter.", "quantifier": "all callees, argument and result type lists, registers named by the return", "why_tests_cant": "Every combination of register count, returned register and result types, and every saved state.", "anchors": ["core/include/Ab/VirtualMachine.hpp: static_call, get_stack_elements", "core/src/ab-core-Interpreter.cpp.jinja: x32_return"]}
{"id": "C149", "title": "The outcome of a call does not depend on earlier calls", "statement": "Calling a function with given arguments has the same outcome however often and after whatever other calls it is made: a call's result is a function of the code and the arguments, not of what the interpreter's stack happens to contain.", "quantifier": "all callees, arguments, sequences of earlier calls, stack contents, load addresses, debug and release builds", "why_tests_cant": "A relation between all pairs of histories: no finite set of call sequences settles that none of them is observable.", "anchors": ["core/include/Ab/VirtualMachine.hpp: static_call, set_stack_elements", "core/src/ab-core-Interpreter.cpp.jinja: enter_native_frame, do_interpret, leave_native_frame"]}
{"id": "C150", "title": "A call executes exactly the instructions the function was built from", "statement": "Calling a function of a module that was built, written and compiled executes the instructions given to the builder, in order from the first one, until one of them ends the function, and nothing else; the outcome is what that instruction says.", "quantifier": "all module descriptions, functions, instruction lists, argument values, stack contents, load addresses", "why_tests_cant": "All instruction lists and all modules around them: what follows a function in the file depends on the whole module.", "anchors": ["core/include/Ab/ModuleBuilder.hpp: FuncNode, ModuleNode", "core/include/Ab/ModuleWriter.hpp: CodeWriter", "core/src/ab-core-Loading.cpp: compile", "core/src/ab-core-Interpreter.cpp.jinja: do_interpret", "core/include/Ab/VirtualMachine.hpp: static_call"]}
{"id": "C151", "title": "A stack handle releases its memory exactly once", "statement": "Stack handles made with a size or with the default size of 8 KiB, moved and destroyed in any order: nothing is undefined, the blocks in use are those owned by existing handles, each by one; a handle's address is its block, and null once it was moved from; without memory the process ends rather than make a handle without a block.", "quantifier": "every history of creations, moves and destructions of handles, every size", "why_tests_cant": "histories of arbitrary length and order", "anchors": ["core/include/Ab/Interpreter.hpp.jinja: Stack"]}
{"id": "C152", "title": "Copying a counted object makes an object with counts of its own", "statement": "Programs that also copy counted objects (a new object made from an existing one): the copy is another object, whose handles refer to the same objects as those of the original; every count is still the number of handles to the object, and an object is in memory exactly while some handle refers to it.", "quantifier": "every program over the operations on handles and copies of objects, objects with any number of handles, cycles included", "why_tests_cant": "programs and object graphs of arbitrary size", "anchors": ["util/include/Ab/Rc.hpp: RefCounter(const RefCounter&), RefCounted, mkrc"]}
{"id": "C153", "title": "Assigning a counted object leaves the counts right", "statement": "Assigning one counted object to another changes what the object says, not how many handles refer to it: counts stay the numbers of handles.", "quantifier": "every program, every two objects in it", "why_tests_cant": "programs and numbers of handles of arbitrary size", "anchors": ["util/include/Ab/Rc.hpp: RefCounter::operator=, RefCounted"]}
{"id": "C154", "title": "A value in a byte buffer can be read at its offset", "statement": "The bytes of a value of any trivial type, appended or written to a buffer at any offset, are read back by reading that type at that offset.", "quantifier": "every history of buffers, every offset and type", "why_tests_cant": "offsets, sizes and alignments of every kind", "anchors": ["util/include/Ab/ByteBuffer.hpp: reinterpret, read, append"]}
{"id": "C155", "title": "Locations are ordered like offsets", "statement": "In the line table of a text, of two offsets the smaller has the earlier location (an earlier line, or an earlier column of the same line); equal locations mean equal offsets; a range of offsets is the pair of the locations of its ends; the last recorded break is where the last line starts.", "quantifier": "all texts, all pairs of 64-bit offsets, also past the end", "why_tests_cant": "A test checks a few offsets of a few texts; the order must hold for every pair in every text.", "anchors": ["parse/include/Ab/Parse/LineInfo.hpp: LineInfo::location, range, last_break", "parse/include/Ab/Parse/Location.hpp: Location, LocationRange"]}
{"id": "C156", "title": "An offset is in the line its location names", "statement": "For every offset and every line of the table, in_line(offset, n) says whether line(offset) is n.", "quantifier": "all texts, offsets and line numbers of the table", "why_tests_cant": "The failing line is the last one, which has no recorded end: a read past the end of the vector that a test may not notice.", "anchors": ["parse/include/Ab/Parse/LineInfo.hpp: LineInfo::in_line, line_start, line_end, line"]}
{"id": "C157", "title": "Symbols and keywords are equal exactly when their names are", "statement": "Of nodes made by name (node_symbol, node_keyword) in any order, two are equal, and hash alike, exactly when both are symbols or both keywords and their names are the same; string_of a symbol is the name it was made from, however many names were interned since.", "quantifier": "all sequences of symbols and keywords, all names", "why_tests_cant": "Every pair in every sequence; a test tries a few names.", "anchors": ["edn/include/Ab/Edn/Ir.hpp: node_symbol, node_keyword, string_of, node_eq, node_hash, SymbolTable::intern"]}
{"id": "C158", "title": "Copied and moved symbol tables stay consistent and independent", "statement": "After any history of constructing, copying, moving and interning, id and string are inverse in every table (moved-from ones included); no table gives one symbol to two names, also after it was moved from; a copy or the target of a move knows what the source knew; interning in one table changes no other and forgets nothing.", "quantifier": "all histories over any number of tables", "why_tests_cant": "The invariant is over all histories and all tables.", "anchors": ["edn/include/Ab/Edn/Ir.hpp: SymbolTable(const SymbolTable&), SymbolTable(SymbolTable&&), intern, id, string"]}
{"id": "C159", "title": "ab-asm shows every token and gap of its input in order", "statement": "ab-asm FILE writes to standard output, for every readable non-empty file: one line for each parenthesis, name, identifier, single newline and other run of white space of the text, in the order of the text and up to the first character that begins no token; then one line with the range of each token. The lines of names and identifiers hold the characters, where the word begins and where it ends. Printing changes neither the tokens, nor whether lexing fails, nor anything else of what the program does.", "quantifier": "all texts (shorter than 2^31 - 1 bytes for the locations), all buffers, all lexer states, all systems", "why_tests_cant": "the printing happens inside the scanner's actions, so what appears and in which order depends on when the longest match of each pattern is found; tests see a few texts", "anchors": ["wast/src/ab-wast-Lexer.cpp.rl", "wast/include/Ab/Wast/Lexer.hpp: fmt::formatter<Ab::Wast::Location>", "asm/src/ab-asm-main.cpp: go"]}
{"id": "C160", "title": "The lexer's lines say where each token starts", "statement": "In the lines the lexer of the text format prints, the place after :start is where the token starts.", "quantifier": "all texts, all tokens in them", "why_tests_cant": "the printed location is a member that the scanner moves on while it reads the token; which value it has when the action runs must be known for every text", "anchors": ["wast/src/ab-wast-Lexer.cpp.rl 66-99"]}
{"id": "C161", "title": "Numbers in an s-expression read back", "statement": "After any sequence of writes to a formatter of text, parentheses, fresh lines and numbers, of any of the integer types for which writing compiles, reading the text back gives each number as one atom with its decimal text (a minus sign if negative, no leading zeros), in its place among the other atoms and parentheses. So texts that are the same have the same number in the same place.", "quantifier": "all sequences of writes, all integer types, all values", "why_tests_cant": "the space before an atom and the indentation depend on everything written before; tests write no number at all", "anchors": ["util/include/Ab/Sexpr.hpp: operator<< 156-184"]}
{"id": "C162", "title": "Writing to an s-expression writes nothing else", "statement": "Writing to a formatter adds to its text only: nothing is written to standard output.", "quantifier": "all sequences of writes, all integer types, all values", "why_tests_cant": "each overload has its own side effects; tests use the text overloads only", "anchors": ["util/include/Ab/Sexpr.hpp: operator<< 156-184"]}

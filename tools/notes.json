{
 "C01": "Full statement.",
 "C02": "Full statement (minimality, length, self-delimitation, injectivity).",
 "C03": "Full statement.",
 "C04": "vari7 proved in full; vari32 proved for non-negative numbers, and every negative number is proved to be undefined behaviour (shift of numeric_limits::max()).",
 "C05": "Full statement (unsigned: all 64-bit values; signed: all encodings of at most nine bytes; ten bytes see C44).",
 "C06": "Refinement to sequences, single ownership of every allocation and precise failure condition, for all client programs using up to 2^62 bytes; uses excluded by `allowed` are exactly the subjects of C46-C48.",
 "C07": "Full statement, for files below 2^32 bytes (the format's size fields are 32-bit).",
 "C08": "Full statement; std::vector::reserve is assumed not to run out of memory.",
 "C09": "Equivalence with a declarative grammar, plus consistency of accepted modules.",
 "C10": "Full statement, end to end through writer and compiler, and more generally for any code the abstract machine runs (loops and branches included). Hypotheses: `can_call` (room on the stack, aligned 64-bit arguments) and a saved ip whose low byte is 0, as in a new interpreter.",
 "C101": "Refuted: the loop over targets returns after the first; texts are equal for any later targets. Proved: tables with no or one target are printed in full.",
 "C102": "Proved up to eight nested blocks; refuted for every n >= 9.",
 "C104": "Proved for printable characters other than quote, backslash and space; refuted for every segment where the first byte that is no such character is a quote, a space or unprintable.",
 "C105": "The -o file and modules without bodies: proved. Refuted for every module with a function body: a debugging line per body goes to standard output.",
 "C107": "Refuted: -o at the end reads the null pointer at argv[argc]; --output is taken for the input file. Proved: these are the only command lines with undefined behaviour.",
 "C109": "refuted for + - / > -> >=: the text ends there without an error; exact for names otherwise (partial)",
 "C11": "Full statement, for every instruction the interpreter implements; all other opcodes stop the process.",
 "C110": "refuted for strings with an apostrophe; proved for all others (partial)",
 "C113": "Proved (partial): when every piece but the last consists of whole tokens and white space and does not end in a word, lexing pieces in different buffers gives the tokens and locations of the whole text, each token pointing into its own piece. Refuted: a word that lies in two buffers makes lex compare and subtract pointers of different buffers (undefined behaviour), for every such word.",
 "C114": "Refuted for every comment and every string: the patterns are defined and not used, and the rest of the text is dropped. Proved: the tokens before the first comment or string are given.",
 "C115": "Refuted for every such text: the lexer stays in its error state and nothing says so. Proved: bad text never becomes a token.",
 "C116": "Refuted: a last word is never emitted without eof. Proved for texts whose last character is not a word's.",
 "C118": "refuted: VirtualMachine::modules_ is never filled, so instances outlive the machine and leak. Partial: when the caller deletes every instance and drops every handle, all bytes are released.",
 "C12": "Full statement (any code, any fuel). state.st_b.func is not restored by the code and not claimed.",
 "C120": "refuted: assignment over the other kind assigns to an object that does not exist (class types), and never destroys the old value. Partial: trivial types.",
 "C122": "refuted: an empty file is refused, and with standard input closed every file is refused and its descriptor lost. Partial: all other files.",
 "C123": "refuted: no text changes a file or gives a message; the status is always 0. Proved: an unreadable file is reported.",
 "C124": "refuted: instantiate_file is unimplemented and aborts for every file.",
 "C125": "Proved (partial): for the 145 operators of the listing the line begins with the text format's name with an underscore for each dot, so that different operators have different lines. Refuted: the dot is never printed, and a module with one of the 27 operators left out (memory size and growth, conversions) ends the process.",
 "C127": "Proved for all tokens that the lexer and the construction helpers make. Refuted for the kinds UNINITIALIZED, DELIMITER and HASH: comparing two such tokens at the same place ends the process.",
 "C128": "Proved: kind, range and integers are determined by the text, and reals as far as fmt's text of the double determines them. Refuted for booleans: true and false print the same (and as an unknown kind, like nil).",
 "C13": "False of the code in general (all states whose ip does not end in a zero byte, plus an API-level witness); proved when the byte is zero.",
 "C130": "Refuted for every module: the id is cut to eight bits, so ids 256 + k are read as k. Partial: every id from 12 to 255, after any well-formed sections, is refused.",
 "C131": "Refuted for every module and every announced length: the length is only reported to the visitor.",
 "C132": "Refuted: every module is accepted with its sections reversed, and with a section repeated any number of times.",
 "C133": "Refuted for every function section after any sections: all indices are reported modulo 2^32. Proved: they are reported as they are exactly if all are below 2^32.",
 "C134": "Proved for programs that assign only from const lvalues and rvalues. Refuted for b = x with a non-const variable x (x is moved from) and for b = c with a non-const box c (the operator moves and has no return statement).",
 "C135": "Exact whenever the result fits the type; wraps (unsigned) or is undefined (int) otherwise. popcount is exact.",
 "C136": "Proved without --; with -- the program gets -- as its name, so ab -- help shows the manual page called help.",
 "C137": "Equivalences in both directions: C137_word_iff, C137_outcome_iff, C137_never_returns_iff; C137_ending_decides gives the exact number of instructions after which the outcome appears. C137_wordless_endings: for endings without a word the same holds for results of any number and type.",
 "C138": "True where every section heading is followed by an entry and no heading contains a line break. Refuted otherwise: the closing parenthesis of the module ends up in a comment whenever the last heading has no entry after it (proved for all such modules), and a section of ten bytes (length printed as a character) breaks its heading into two lines.",
 "C139": "What is reported is exactly what comes before the first NUL (proved for all export and import sections and for a custom section at the end of a file); names with a NUL are cut, so different names become the same.",
 "C14": "False of the code (large register counts, foreign registers, all with modules compile accepts); proved for callees that stay in their frame, when the frame fits.",
 "C140": "Refuted: every written file with functions can be cut before its code section and is then accepted, with types and type indices but without functions. Partial: an accepted cut is always between two sections and gives an initial part of the module; for written files exactly the three cuts between sections are accepted, and none of them has a function, so no code of an incomplete file can be called.",
 "C141": "Under the condition that the hashes kept in the map on the right are those of the keys as they are, which C141_keys_stay_up_to_date shows to hold after every history in which no part of a key is changed.",
 "C143": "Holds when the hash of the key has changed (C143_changed_key_is_lost_partial); with equal hashes the entry is found under the new key.",
 "C144": "Holds exactly for nodes without null pointers and without cycles; a list to which it was itself appended is never hashed and never compared.",
 "C145": "Characters are converted to bool: exactly 0 and 1 are kept.",
 "C148": "Refuted: nothing compares the number of result words with the registers behind the returned one; a function that returns its last register but is declared to have a 32-bit and two 64-bit results hands out the saved instruction pointer and the interpreter's stack pointer. Partial: if the words fit into the callee's registers the results are exactly those registers.",
 "C149": "Refuted: registers behind the arguments are not cleared, so a callee starts with the registers the last callee of as many registers ended with (C149_registers_are_left_behind_refuted), and a function that returns such a register returns the argument of the call before (C149_the_outcome_depends_on_history_refuted). Proved: if on every way through the callee's code every register used is an argument or was set before, the outcome (result, abort, undefined behaviour, still running, for every bound) is the same on any two machines with the same code, whatever their stacks hold, wherever the code is loaded and whether or not the build is a debug build; calls in a row each return what they return when made first; and calls that return results of any number and type from registers that were set return the same values on any two machines; and if the call ends otherwise than by x32.return, it ends the same way on any two machines, whatever its results (C149_wordless_endings_partial). Missing: code that reads or returns a register it has not set, where the claim is false.",
 "C15": "Full statement.",
 "C150": "Refuted: nothing checks that a function ends; the last function of a module then reads outside of the module (for every module and call), any other goes on with the size field of the next entry as an instruction. Proved: with an instruction that ends it (and registers of its own frame) a function executes exactly its instructions up to the first such one, or to the first signed overflow, with the outcome that goes with it, for every bound on the number of instructions (no result or one 32-bit one), and a function that reaches x32.return of a register returns, whatever its result types, the values whose words stand from that register on. x64.return, which the builder offers, is among them: the interpreter does not know it and aborts. Functions that end in another way (abort, overflow, leaving the module) do so whatever their results are (C150_wordless_endings_partial, C150_any_results_leave_the_module_refuted). Missing: functions without an instruction that ends them, where the claim is false.",
 "C151": "Full statement. The class is not used by the interpreter, which allocates its stack itself (C60).",
 "C152": "Full statement, for the programs of C33 with copies of objects.",
 "C153": "Refuted: the count is copied along. For every program and every two objects with null handles only (or none) the object assigned to is left with the number of handles to the other; it is freed while referred to (use after free) or never freed. *x = *x, and *x = *x->next in a list, use freed memory when a member is the last handle. Proved: when as many handles refer to the one as to the other and neither expression goes through the members of the object assigned to, the assignment does what it should, whatever objects die by it; with other numbers of handles, all members, counts and allocations after it as long as no object dies (C153_assignment_without_deaths_partial), and for any assignment between the objects of two variables that it does exactly what assigning the members one by one does after the count has been replaced (C153_what_an_assignment_does). Missing: only cases where the claim is false.",
 "C154": "Refuted: at an offset that is not a multiple of the type's alignment the behaviour is undefined (a reference through a pointer cast), for every buffer. Proved: at every other offset, and in particular for the value appended last, the bytes are read.",
 "C155": "Walk of the text gives the reading order; proved by induction over the text.",
 "C156": "Proved for every line but the last, and for the last line when the offset is before it. Refuted, for every text: asking whether an offset of the last line is in the last line reads breaks_ one past its end.",
 "C157": "Statement over C21's table and C23/C24's node equality and hash.",
 "C158": "The moved-from maps are taken to be empty, as in libstdc++ and libc++; assignment of tables does not exist.",
 "C159": "The scanner is modelled a second time with what its actions print; C159_printing_changes_nothing ties it to the model of C111 for every state and call, C159_nothing_else ties the program to that of C121 to C123.",
 "C16": "Full statement. The by-index overload exists in C++ only for functions without results (it drops Rs).",
 "C160": "Refuted: for every parenthesis in every text the place shown is where it ends. Proved: names and identifiers are shown with their characters, start and end.",
 "C161": "Code outside a namespace with an operator<< of its own (in Ab::Wasm the operators are not found, see C99). long, long long and floating types do not compile.",
 "C162": "False: unsigned char, unsigned short, unsigned long and unsigned long long write a line of debugging text to standard output for every number. Proved: it holds exactly of the sequences with no number of those types, and what is written depends on the types alone. Missing: only sequences for which the claim is false.",
 "C17": "Full statement, for every behaviour of std::hash.",
 "C18": "Proved for sizes below 2^64 bytes, over every placement and failure the system call contract allows; pages are an abstract map, so mmap/mprotect/munmap themselves are assumed to follow POSIX.",
 "C19": "Full statement under the stated use; remove of an absent element is proved undefined.",
 "C27": "Refuted: at the first character that begins no token the rest of the text is silently dropped. Proved: that is the only thing an empty log can hide.",
 "C28": "Refuted: a map that is still open at the end of the text is parsed for ever. Proved: for every text at all, exactly which of document, exception, endless loop and integer overflow happens, told by the brackets and the first number that is too large, and a step bound.",
 "C29": "Numbers must be in range (C65); map keys without maps and NaNs (C62 says why); strings whose closing quote follows a backslash only when no quote follows (C69).",
 "C32": "Refuted: the range-for loop asserts for sizes that are multiples of 4 above 4 and not a power of 4 (end() looks up the leaf of index size); foreach visits the unused slots of the last leaf. Partial: exactly when and what each loop visits, for all sizes.",
 "C34": "Refuted: assigning a Maybe that holds nothing leaves the old value in place, and assigning a Maybe that holds a value to itself copies a destroyed value (undefined behaviour). Partial: programs that assign only values and not to themselves: right values, every value destroyed exactly once. `m = NOTHING` and assignment from a const Maybe do not compile (deleted copy assignment).",
 "C36": "Full statement.",
 "C37": "Full statement, with the out-of-range exponents characterised.",
 "C38": "Refuted: lock() only counts, guards do nothing, isLocked is always false and tryExclusiveLock always succeeds, so two threads can hold the lock exclusively. Partial: the counters are exactly the outstanding acquisitions in every schedule that stays within the range of int, and undefined behaviour outside it.",
 "C40": "Full statement for the three supported instructions; the rest is C52.",
 "C41": "Directory reading is a parameter (opendir/readdir contract); readdir errors end a directory early in the code and are outside the model.",
 "C43": "False of the code: uleb128 never throws (proved for every stream). Proved instead: what the value is (C43_what_is_returned_partial).",
 "C44": "Non-negative ten-byte numbers proved; every negative one is proved to be an undefined shift by 70.",
 "C45": "Proved: every number >= 2^35 and every spelling of more than five bytes is rejected. Refuted: a five-byte spelling whose last byte has bits above 2^32 is accepted and loses them.",
 "C46": "False of the code for buffers that own storage (double free / abort / dangling pointer, witnesses); proved for buffers without storage.",
 "C47": "Proved when the capacity suffices; use after free otherwise (witness).",
 "C48": "Proved when offset+length does not wrap; false otherwise (all heaps).",
 "C49": "False of the code (three witnesses); proved: exactly the `fatal` situations stop the process, everything else malformed throws DecodeError.",
 "C50": "False of the code: operands are reduced modulo 256. Proved: writing is injective on descriptions whose operands fit.",
 "C51": "False of the code (four witnesses); proved for sections in the usual order.",
 "C52": "False of the code: any instruction with an operand makes the reader loop forever (all fuels). Proved: reading ends exactly when no instruction has an operand.",
 "C53": "False of the code: proved undefined for all calls of two families. Proved: the cases in which the widths line up are well defined.",
 "C54": "False of the code: pow(n) is 2^(exponent+n-1); C54_pow_partial says exactly when it is right.",
 "C55": "False of the code: shrink never changes anything (proved for all memories and all n).",
 "C56": "False of the code: max_size() is a number of pages. Proved: the size in pages is what is returned.",
 "C57": "False of the code: the implicit copy constructor duplicates ownership. Proved: two memories made separately do not disturb each other.",
 "C58": "False of the code for max * page size >= 2^64; C18_history proves it below that. Proved: limits whose byte count fits 64 bits.",
 "C59": "False of the code, for every configuration with min > 0 when mprotect fails. Proved: failures before the memory is reserved leave nothing behind.",
 "C60": "Full statement. new[] is taken to succeed and to give a block not in use.",
 "C61": "False of the code for every context in every reachable state: destroying both objects follows a null pointer (newest context) or deletes the interpreter stack twice (every other). Proved: destroying only one of the two (the source; or either, if the source was not the newest) is well defined, the list is right and the stack is deleted once.",
 "C62": "Refuted: comparing two sets aborts; a NaN (which the reader produces from 0e400) is not equal to itself; two equal maps whose keys are maps compare different when the inner maps iterate in different orders, because the lookup hashes in iteration order. The true part is C23. Proved: comparing always ends, and what it answers on values without sets, NaNs and composite keys.",
 "C63": "Refuted: a map's hash mixes its entries in iteration order, so equal maps may hash differently; hashing a character or a set aborts. The true part is C24. Proved: exactly which values can be hashed.",
 "C65": "Refuted: every literal out of range, and also INT64_MIN, overflows a signed integer (undefined behaviour). Proved: exactly which literals are read, and never as another value.",
 "C66": "Refuted: 0.3 is read as 0x3fd3333333333334; twenty-digit exponents overflow. Partial: never an assertion failure; which double every literal is read as; the nearest double for literals without fraction, below 2^53 and with exponents 0 to 22.",
 "C68": "Refuted: newlines in strings are not recorded. Proved: the exact locations (newlines in tokens count as spaces), hence right ones before the first such token.",
 "C69": "Refuted: \"\\\\\\\\\" followed by another string is read as one token up to the next quote. Proved: a string ends at the first quote (or fails at the first apostrophe) without a backslash directly before it; and nothing else is a string token.",
 "C70": "Refuted for every keyword: the node is a symbol node. Its text keeps the colon, so symbols and keywords stay different.",
 "C71": "Refuted: messages that contain a closing brace are used as format strings, so reporting them throws; an open map at the end never returns (C28). Proved: whenever a document is returned, mistakes were logged.",
 "C72": "",
 "C73": "Refuted: the append to a vector of 2^30+1 elements shifts the int 1 by 32 bits. Partial: every append to a vector of at most 2^30 elements works.",
 "C74": "Refuted: Vec<int> v; v = v; increments the count of a freed node. Partial: harmless exactly if the root has another reference.",
 "C75": "Refuted: x = x, x = x->next and x = std::move(x->next) use freed memory when x was the only handle to its object. Partial: they are right whenever the old object has another handle or x is null (and, by C33, whenever the source is not reached through the destination); with x the only handle, self-assignment and assignment of a member of x's object always use freed memory.",
 "C76": "Refuted by an object that refers to itself. Partial: holds for every acyclic object graph.",
 "C77": "Refuted for `ab -- cmd`: argv + 1 is passed on, so the program is called with -- as its name and its own name as first argument. Proved without --, with the exact behaviour in both cases and the converse.",
 "C79": "Refuted: with one operand the input name stays a null pointer (undefined behaviour in string_view); after -- the file called -- is opened. Proved for exactly two operands without --; C79_asm_exactly characterises every command line.",
 "C80": "Refuted: the indentation saturates at ten levels going up but not coming down, so after deeper nesting it stays too small. Partial: nesting never deeper than ten.",
 "C81": "Refuted: double quotes inside the string are not escaped, so no reader can exist. Partial: strings without a double quote.",
 "C82": "Refuted: one-past-the-end is compared with <, so directly adjacent spans are not ordered. The exact characterisation is C42_span_before_gap. Proved: \"<\" is exactly \"entirely before with a gap\".",
 "C83": "Refuted: strncmp stops at a NUL byte. Partial: one of the spans has no NUL.",
 "C84": "Refuted: only the common length is compared, so a prefix compares equal and equality is not transitive. Partial: same length, no NUL.",
 "C85": "Refuted: just(nullptr) holds nothing, and assigning a nothing keeps the old pointer. Partial: non-null pointers.",
 "C88": "Refuted: five bytes are a module, as are six and seven; a count without entries yields entries; a cut number is read as if its next byte were 0x7f. Proved: an input of at most four bytes is refused; the calls for all complete sections come first, whatever follows; and for every cut after the header, by section kind and place (in the length, the count, between entries, inside an entry, in the length, name or contents of a custom section), exactly what happens: refused, process exits, or accepted with a made-up rest; a cut inside the code of a body is never accepted when the visitor reads the code with the library's ExprReader, as ab-disasm does. Missing: cuts inside the code with a visitor that leaves the code in the stream (the reader then takes instructions for bodies, C89).",
 "C89": "Refuted: the contents are read as further sections. Proved: the section is announced, its contents are left in the stream.",
 "C90": "Refuted for every custom section with something behind it. Proved: a custom section at the end of a file is skipped.",
 "C92": "Refuted: length 2^64-1. Proved: for every other length reading is safe, and what it gives.",
 "C93": "Refuted: the process exits. Proved: nothing that is not an instruction with its kind of immediate is ever reported.",
 "C95": "refuted: for every sequence of known instructions followed by memory.size, memory.grow or a conversion the process exits; the opcodes are commented out in data/wasm_operators.yaml Proved: a sequence of instructions is reported exactly when none of these is in it.",
 "C96": "Refuted for every module with one function body, and for every module with bodies: if it is accepted at all, the first body is shown with at least one instruction that is not its own (a two-body module that is accepted and misread is given). Proved: every module without bodies is disassembled.",
 "C97": "Refuted for every module without function section. Proved: the behaviour is undefined exactly when the number of the body is not announced.",
 "C98": "Proved when no number, name character or data byte is the code of a parenthesis mod 256; refuted for every index \u2261 40, 41 (mod 256), because numbers are printed as characters.",
 "C99": "Refuted for every export index: inside namespace Ab::Wasm only the char overload of operator<< is found, so n prints as the character n mod 256. Proved: indices below 256 are distinguishable."
}
#!/usr/bin/env python3
"""Writes /verif/properties.jsonl from the table below (kept as source so the list is easy to extend)."""
import json, os
P = []
def p(id, title, statement, quantifier, why, anchors):
    P.append(dict(id=id, title=title, statement=statement, quantifier=quantifier,
                  why_tests_cant=why, anchors=anchors))

# ---------------------------------------------------------------- crypter
p("C01", "Threefish block decryption inverts encryption",
  "For a cipher of any of the three supported sizes, whatever key and tweak it holds, Decrypt64 applied to the result of Encrypt64 on a block gives the block back, and Encrypt64 applied to the result of Decrypt64 gives the block back.",
  "all three state sizes, all keys, all tweaks, all blocks of 64-bit words",
  "2^256 .. 2^1024 blocks times as many keys; a test samples a handful, and the ~6000 unrolled lines hide single-line slips that only some words expose",
  ["crypter/crypter256.go:threefish256.encrypt", "crypter/crypter256.go:threefish256.decrypt", "crypter/crypter512.go", "crypter/crypter1024.go", "crypter/crypter.go:Cipher.Encrypt64", "crypter/crypter.go:Cipher.Decrypt64"])
p("C02", "The cipher is Threefish",
  "Encrypt64 computes exactly the Threefish block function of the Skein 1.3 specification (key schedule with C240 parity, tweak schedule, 72/72/80 rounds of MIX with the specified rotation constants and word permutations, final subkey), for the key and tweak that were set.",
  "all three sizes, all keys, tweaks and blocks",
  "two known-answer vectors per size cannot separate an implementation from one that differs on other inputs",
  ["crypter/crypter256.go:threefish256.encrypt", "crypter/crypter512.go:threefish512.encrypt", "crypter/crypter1024.go:threefish1024.encrypt", "crypter/crypter.go:setKey", "crypter/crypter.go:setTweak"])
p("C03", "Byte blocks round-trip, in place or not",
  "With a cipher from New (or NewSize followed by SetKey/SetTweak), Encrypt(dst, src) leaves in dst the little-endian Threefish encryption of the block that src held before the call and touches no byte outside the first BlockSize bytes of dst, however dst and src overlap; Decrypt undoes it.",
  "all memories, all dst/src positions (overlapping or not), all keys, tweaks and sizes",
  "overlap patterns and contents are unbounded; tests use disjoint buffers",
  ["crypter/crypter.go:Cipher.Encrypt", "crypter/crypter.go:Cipher.Decrypt", "crypter/crypter.go:New"])
p("C04", "A cipher's output depends only on the last key and tweak",
  "After any sequence of SetKey, SetTweak, Encrypt, Decrypt, Encrypt64 and Decrypt64 calls, the next encryption equals that of a cipher freshly built with the most recent key and the most recent tweak: no state leaks between blocks.",
  "all finite histories of calls on one cipher object",
  "histories are unbounded; the object keeps scratch buffers that could leak",
  ["crypter/crypter.go:Cipher", "crypter/crypter.go:setKey", "crypter/crypter.go:setTweak"])
p("C05", "Constructors accept exactly the documented key sizes",
  "New succeeds exactly for 32-, 64- and 128-byte keys, New64 exactly for 4-, 8- and 16-word keys and NewSize exactly for 256, 512 and 1024; any other size yields a KeySizeError carrying that size; New and New64 given the same key material (little-endian) give ciphers that agree on every Encrypt64/Decrypt64.",
  "all key lengths and contents, all tweaks",
  "unboundedly many key lengths and contents",
  ["crypter/crypter.go:New", "crypter/crypter.go:New64", "crypter/crypter.go:NewSize"])
p("C06", "Byte interface of ciphers built by New64 is broken",
  "The byte-level interface of a cipher made by New64 does not behave like that of the cipher New makes from the same key: BlockSize is 4, 8 or 16 instead of 32, 64 or 128 for every key, the byte-level Encrypt of a 256-bit one leaves dst as it is, and in general, after any history, Encrypt writes only the first 0, 1 or 2 words of the encryption of the block made of that many words of src followed by zeros. (Expected, and refuted: the same behaviour as New's.)",
  "all 4-, 8- and 16-word keys, all blocks",
  "needs the behaviour for every key and block, including the claim that for 4-word keys no input is ever encrypted",
  ["crypter/crypter.go:New64", "crypter/crypter.go:Cipher.Encrypt", "crypter/crypter.go:Cipher.BlockSize"])
p("C07", "Cryptor.Decrypt never recovers the text",
  "For every key, text, history and base64 decoder: a key text whose length is not 32, 64 or 128 bytes leaves no cipher and the first call panics; Decrypt returns zero bytes whatever it is given, so it never recovers a text that is not all zeros. (Expected, and refuted: Cryptor.Decrypt recovers the text that Cryptor.Encrypt encoded.)",
  "all texts, all key texts",
  "the failure has to be shown for every text, not one",
  ["crypter/cmd/crypt.go:Cryptor.Encrypt", "crypter/cmd/crypt.go:Cryptor.Decrypt", "crypter/cmd/crypt.go:New"])
# ---------------------------------------------------------------- password
p("C08", "Generated passwords have the requested composition",
  "When Generate returns a password for non-negative counts and ASCII character sets, it has exactly `length` bytes, and it is an interleaving of numDigits characters of the digit set, numSymbols of the symbol set and length-numDigits-numSymbols letters (lower-case only when noUpper), whatever bytes the random source delivered.",
  "all requests, all (ASCII) generator configurations, all random byte streams",
  "the random stream is unbounded; a test sees a few draws",
  ["password/generate.go:Generator.Generate", "password/generate.go:randomInsert", "password/generate.go:randomElement"])
p("C09", "No repeats when repeats are disallowed",
  "When allowRepeat is false, no character occurs twice in the returned password.",
  "all requests, (ASCII) configurations and random streams",
  "a repeated character may appear only for rare draws",
  ["password/generate.go:Generator.Generate"])
p("C10", "Exactly the impossible requests are refused",
  "Generate refuses with ErrExceedsTotalLength iff digits+symbols exceed the length, and with the Letters/Digits/Symbols error iff repeats are disallowed and that class asks for more characters than its set has bytes (checked in this order); otherwise the only error is one from the random source. This holds as long as length-digits-symbols fits in an int; beyond that the subtraction wraps around and a request for more than length+2^63 characters is not refused, but never yields a password shorter than 2^63 bytes.",
  "all requests and configurations",
  "unbounded integer parameters",
  ["password/generate.go:Generator.Generate"])
p("C11", "Every valid password is equally likely",
  "With duplicate-free, mutually disjoint character sets, every password of the requested composition is produced by the same number of choice sequences (element choices and insertion positions), so no valid password is favoured or impossible; and the bounded draw from the byte stream maps equally many raw values to each result.",
  "all compositions, all valid passwords, all choice sequences",
  "a statement about counting all random choices",
  ["password/generate.go:Generator.Generate", "password/generate.go:randomInsert", "password/generate.go:randomElement"])
p("C12", "Negative counts and non-ASCII sets",
  "The length guarantee of Generate is limited to non-negative counts and ASCII sets: a negative digit or symbol count lengthens the password beyond `length`, and a set with a byte >= 0x80 yields longer passwords, made of the bytes of the UTF-8 text of the characters U+0000 to U+00FF with those numbers. A set containing duplicates can make a no-repeat request run forever: no random stream, however long, ever yields a password.",
  "all negative counts; all random streams",
  "non-termination and length failure have to be shown for every stream",
  ["password/generate.go:Generator.Generate", "password/generate.go:randomElement"])
# ---------------------------------------------------------------- gf256 / RS
p("C13", "GF(256) arithmetic is a field",
  "Whenever NewField accepts (poly, alpha), Add and Mul form a field on the 256 bytes: Mul is the carry-less product reduced modulo poly, it is associative, commutative and distributes over Add, and Inv(x) is the inverse of every x != 0; NewField accepts exactly irreducible degree-8 polynomials with alpha a generator.",
  "all polynomials and generators NewField accepts, all bytes (triples)",
  "16 million triples for each of thousands of fields",
  ["qrterminal/qrcode/gf256/gf256.go:NewField", "qrterminal/qrcode/gf256/gf256.go:Field.Mul", "qrterminal/qrcode/gf256/gf256.go:Field.Inv", "qrterminal/qrcode/gf256/gf256.go:reducible"])
p("C14", "Exp and Log are inverse and turn products into sums",
  "Log(Exp(e)) = e mod 255 for e >= 0, Exp(Log(x)) = x for x != 0, Exp(a+b) = Mul(Exp a, Exp b); the documented special cases (-1, 0) hold.",
  "all accepted fields, all exponents, all bytes",
  "unbounded exponents, all fields",
  ["qrterminal/qrcode/gf256/gf256.go:Field.Exp", "qrterminal/qrcode/gf256/gf256.go:Field.Log"])
p("C15", "Reed-Solomon check bytes make a codeword",
  "For every data block, data followed by the c check bytes ECC writes, read as a polynomial, is divisible by the generator polynomial (x-1)(x-alpha)...(x-alpha^(c-1)): it vanishes at alpha^0..alpha^(c-1).",
  "all accepted fields, all check lengths, data of every length and content",
  "data length and content unbounded",
  ["qrterminal/qrcode/gf256/gf256.go:RSEncoder.ECC", "qrterminal/qrcode/gf256/gf256.go:Field.gen"])
p("C16", "Two different blocks differ in more than c places",
  "Codewords (data plus c check bytes, at most 255 bytes in all) of two different data blocks of equal length differ in at least c+1 positions, so any c/2 byte errors leave the original the unique nearest codeword.",
  "all pairs of data blocks",
  "quantifies over all pairs of blocks",
  ["qrterminal/qrcode/gf256/gf256.go:RSEncoder.ECC"])
p("C17", "ECC does not depend on earlier calls",
  "The check bytes ECC writes are the same on a fresh encoder and on one that has already encoded any sequence of other blocks (the encoder reuses a scratch buffer). Only check[:c] is guaranteed: bytes beyond c may be overwritten with zeros on a reused encoder.",
  "all call histories on one encoder",
  "unbounded histories",
  ["qrterminal/qrcode/gf256/gf256.go:RSEncoder.ECC"])
# ---------------------------------------------------------------- QR
p("C18", "Encoding size is predicted exactly",
  "For each mode (numeric, alphanumeric, byte) and version, Encode appends exactly Bits(v) bits.",
  "all texts, all versions",
  "unbounded texts",
  ["qrterminal/qrcode/coding/qr.go:Num.Encode", "qrterminal/qrcode/coding/qr.go:Alpha.Encode", "qrterminal/qrcode/coding/qr.go:String.Encode", "qrterminal/qrcode/coding/qr.go:Bits.Write"])
p("C19", "Bit stream decodes to the text",
  "Reading the bits back by the QR standard (mode indicator, character count, groups of 3/2/1) gives the original text, for each mode, provided the text fits the version.",
  "all texts accepted by the mode's Check, all versions they fit",
  "unbounded texts",
  ["qrterminal/qrcode/coding/qr.go:Num.Encode", "qrterminal/qrcode/coding/qr.go:Alpha.Encode", "qrterminal/qrcode/coding/qr.go:String.Encode"])
p("C20", "Smallest version is chosen, and only overlong text is refused",
  "qr.Encode uses the smallest version from 1 to 40 in which the text fits at the level, and returns an error exactly when no version fits.",
  "all texts, all four levels",
  "unbounded texts",
  ["qrterminal/qrcode/qr.go:Encode", "qrterminal/qrcode/coding/qr.go:Version.DataBytes"])
p("C21", "Padding and block split fill the symbol exactly",
  "AddCheckBytes never panics for data that fits: it pads to exactly DataBytes with the standard 0000/EC/11 pattern and appends, block by block, Reed-Solomon check bytes so that the total is the version's byte capacity.",
  "all bit strings that fit, all versions and levels",
  "unbounded contents",
  ["qrterminal/qrcode/coding/qr.go:Bits.Pad", "qrterminal/qrcode/coding/qr.go:Bits.AddCheckBytes"])
p("C22", "Each codeword bit has its own module",
  "For every version 1..40, level and mask, NewPlan succeeds without panicking and assigns every data and check bit of the interleaved codeword stream to exactly one module, in the standard's zig-zag order, never on a function pattern.",
  "all versions, levels and masks",
  "1280 plans of up to 31329 modules: an exhaustive computation inside the proof assistant",
  ["qrterminal/qrcode/coding/qr.go:NewPlan", "qrterminal/qrcode/coding/qr.go:vplan", "qrterminal/qrcode/coding/qr.go:lplan"])
p("C23", "A standard reader recovers text and level from the symbol",
  "For every text that fits, a reader written from the standard (format bits, unmasking, zig-zag, de-interleaving, mode decoding) applied to the pixels of qr.Encode's result returns the level and the text.",
  "all texts, all levels",
  "unbounded texts; end-to-end composition",
  ["qrterminal/qrcode/qr.go:Encode", "qrterminal/qrcode/coding/qr.go:Plan.Encode"])
p("C24", "The terminal picture is the symbol with its quiet zone",
  "Full-block and half-block output, read back as a bitmap, is exactly the symbol framed by QuietZone (at least 1) white modules on each side.",
  "all symbols, all quiet zone widths, both renderings",
  "unbounded sizes and quiet zones",
  ["qrterminal/qrterminal.go:Config.writeFullBlocks", "qrterminal/qrterminal.go:Config.writeHalfBlocks", "qrterminal/qrterminal.go:GenerateWithConfig"])
p("C25", "Overlong text crashes the terminal generator",
  "GenerateWithConfig drops Encode's error and dereferences the nil code: it panics for exactly the texts Encode refuses, hence for every text of at least 7090 bytes, and returns normally for all others. (Expected, and refuted: it always returns normally.)",
  "all texts, levels and configurations",
  "the characterisation is over all texts",
  ["qrterminal/qrterminal.go:GenerateWithConfig"])
# ---------------------------------------------------------------- closestmatch
p("C26", "Matching result is schedule-independent",
  "The scores `match` collects from its eight concurrent workers are the same for every interleaving of workers and every order of jobs and results, every schedule terminates, and no schedule deadlocks.",
  "all interleavings, all map iteration orders, all word lists and queries",
  "schedules cannot be enumerated by a test",
  ["closestmatch/closestmatch.go:ClosestMatch.match", "closestmatch/closestmatch.go:ClosestMatch.worker"])
p("C27", "ClosestN returns the best entries, best first",
  "ClosestN(q, n) returns at most n distinct words of the list, in non-increasing score order, no omitted word scoring higher than a returned one; words sharing no substring with the query are never returned; Closest is its first element or the empty string.",
  "all word lists, queries and n",
  "unbounded inputs and tie orders",
  ["closestmatch/closestmatch.go:ClosestMatch.ClosestN", "closestmatch/closestmatch.go:ClosestMatch.Closest", "closestmatch/closestmatch.go:rankByWordCount"])
p("C28", "Scores follow the documented bag-of-substrings formula",
  "The score of a word is the sum, over the distinct query substrings it contains and over its occurrences in the list, of 1 + 1000/len(word) + 1000/(number of list entries containing the substring).",
  "all word lists and queries",
  "unbounded inputs",
  ["closestmatch/closestmatch.go:New", "closestmatch/closestmatch.go:ClosestMatch.splitWord", "closestmatch/closestmatch.go:ClosestMatch.worker"])
p("C29", "An entry typed exactly: when it is found",
  "Searching for the exact (lower-case) name of a list entry has that entry among the answers; the first answer is that entry unless another entry is shorter, or is about as short and has all its substrings, so it is first whenever no other entry is shorter and each lacks one of its substrings; an entry is never returned first if a sufficiently shorter one has all its substrings; a query all of whose substrings contain an upper-case letter finds nothing. (Expected, and refuted: an entry typed exactly always comes first.)",
  "all word lists and entries",
  "characterising when it holds quantifies over all lists",
  ["closestmatch/closestmatch.go:ClosestMatch.Closest", "cmds/show.go:ShowCmd.Run"])
p("C30", "What can be found after Add",
  "After New(ws) and Add(vs), a query finds exactly the words that are in vs, or in ws beyond the length of vs, and whose own substrings, or those of the word they replaced, it shares; so the new words are always found by their substrings, and the first words of ws never. (Expected, and refuted: after Add the old words can still be found.)",
  "all word lists",
  "needs the exact effect for every list",
  ["closestmatch/closestmatch.go:ClosestMatch.Add"])
# ---------------------------------------------------------------- repo
p("C31", "Scan collects exactly the vault entries",
  "For a clean root directory, Scan lists every file lying directly in one of the six category directories, except .DS_Store, exactly once, under its category and with its path relative to the root, and nothing else; it never descends into .git. Without a store the commands that read it print nothing: they report a missing root, exit if the path leads through a file, and crash if it is a file.",
  "all directory trees",
  "unbounded trees",
  ["repo/repo.go:Repo.Scan"])
p("C32", "Line reading visits every line once, numbered from 1",
  "GetFileContentByLine calls the handler on the file's lines in order with numbers 1,2,..., with the line ending (LF or CRLF) removed, until the handler stops it; it refuses a file whose first line has a NUL byte; lines after one of 64 KiB or more are silently not visited.",
  "all file contents, all handlers, all ways the file is read in chunks",
  "unbounded contents and read schedules",
  ["repo/repo.go:GetFileContentByLine"])
p("C33", "SearchInFile reports exactly the matching lines",
  "SearchInFile returns, in order, exactly the lines for which the predicate reports a match, with their line numbers and text; it never reports an error (missing and binary files give an empty result).",
  "all contents and predicates",
  "unbounded contents",
  ["repo/repo.go:SearchInFile"])
p("C34", "Repository searches cover every scanned file",
  "GlobSearch, DirectSearch and GrepSearch return one result per scanned file, each with exactly the matching lines of the file of that name, whatever order the map is iterated in. (The name is opened relative to the working directory, not to Root.)",
  "all stores, all map orders, all queries",
  "map order nondeterminism and unbounded stores",
  ["repo/repo.go:Repo.GlobSearch", "repo/repo.go:Repo.DirectSearch", "repo/repo.go:Repo.GrepSearch"])
# ---------------------------------------------------------------- cmds
p("C35", "show prints the entry faithfully",
  "show prints the lines of the closest entry unchanged and in order; with -l each is prefixed by its number, with -i n only line n; no other file is printed and nothing is written to the store.",
  "all stores, names and options",
  "unbounded stores",
  ["cmds/show.go:ShowCmd.Run"])
p("C36", "set-env exports the first line under the env name",
  "set-env sets, for each selected entry and each later line starting with env:, the trimmed upper-cased name to the entry's first line; other variables keep their value.",
  "all stores, all names, all file orders",
  "unbounded stores, map order",
  ["cmds/setenv.go:SetEnvCmd.Run"])
p("C37", "Form passwords follow the form",
  "generate --form yields, position by position, a lower-case letter for x, an upper-case letter for X, a digit for n, a symbol for s, and copies the separators - _ / \\ #, dropping everything else, and never panics. (For 'a' the documented 'letter or number' is violated when the form also has s: it can be a symbol; and --unique is violated: 'a' repeats a character also used by x, n or s.)",
  "all forms, flags and random streams",
  "unbounded forms and streams",
  ["cmds/generate.go:GenerateCmd.Run"])
p("C38", "list and search print exactly what they should",
  "list without argument prints every scanned entry exactly once; list SUB prints exactly the entries of one category whose name is a best match for SUB; search prints at most --fuzzy entries in score order.",
  "all stores, map orders and arguments",
  "unbounded stores, map orders",
  ["cmds/list.go:ListCmd.Run", "cmds/search.go:SearchCmd.Run"])
p("C39", "grep prints exactly the matching lines",
  "grep prints, for each entry with a match, the numbered lines whose text matches the pattern (and, with a sub-pattern, whose leftmost match itself matches the sub-pattern).",
  "all stores and predicates",
  "unbounded stores",
  ["cmds/grep.go:GrepCmd.Run"])
p("C40", "Management commands and the store",
  "insert --file F NAME creates NAME with exactly F's content and leaves every other entry alone; init, remove, rename, copy, query and generate leave the store unchanged (remove, rename, copy and init are documented to change it, but the code only prints).",
  "all stores and arguments",
  "unbounded stores",
  ["cmds/insert.go:InsertCmd.Run", "cmds/remove.go:RemoveCmd.Run", "cmds/rename.go:RenameCmd.Run", "cmds/copy.go:CopyCmd.Run", "cmds/init.go:InitCmd.Run"])
p("C41", "Clipboard on Unix never works",
  "On Unix systems Read and Write fail for every environment and every installed tool, because Unsupported is set to true before and after detection and never false; the tool that is chosen, and what Write and Read would do if enabled (hand the text to it; return its output without a final CR LF on Windows tools; run the tool's own command line, or with Primary set its name alone), are exact. (Expected, and refuted: when a clipboard utility is installed, Write hands the text to it.)",
  "all environments (installed tools, WAYLAND_DISPLAY), all texts",
  "needs all environments",
  ["clipboard/clipboard_unix.go:init", "clipboard/clipboard_unix.go:write", "clipboard/clipboard_unix.go:read"])
# ---------------------------------------------------------------- glob
p("C42", "QuoteMeta makes any text literal",
  "For every valid UTF-8 string s without NUL and U+FFFD, Compile(QuoteMeta(s)) succeeds and the glob matches exactly the string s, whatever the separators.",
  "all strings s and t, all separators",
  "unbounded strings",
  ["glob/glob.go:QuoteMeta", "glob/syntax/lexer/lexer.go", "glob/syntax/ast/parser.go", "glob/compiler/compiler.go"])
p("C43", "Parsing never panics and always terminates",
  "Compile's lexer and parser return a tree or an error for every byte string: no nil parent is dereferenced and the scan always makes progress.",
  "all byte strings",
  "unbounded inputs",
  ["glob/syntax/lexer/lexer.go:lexer.Next", "glob/syntax/ast/parser.go:Parse"])
p("C44", "Parsing follows the documented grammar",
  "A pattern printed from a syntax tree by the documented grammar parses back to that tree; and a pattern without NUL bytes is accepted exactly when a slightly larger grammar derives it (classes are one range or a list that may contain hyphens past the second character, alternatives may stay open at the end, a backslash may come last), with the one tree that grammar gives it; every other pattern, in particular invalid UTF-8, is an error.",
  "all syntax trees; all patterns, valid UTF-8 or not",
  "unbounded nesting and length",
  ["glob/syntax/lexer/lexer.go", "glob/syntax/ast/parser.go"])
p("C45", "Each matcher's Match is its documented language",
  "Text, Any, Super, Single, List, Range, Prefix, Suffix, PrefixAny, SuffixAny, Contains, Min, Max, Nothing, AnyOf, EveryOf match exactly the strings their definition says; the exceptions (Single and negated List/Range accept the empty string; PrefixSuffix accepts overlapping prefix and suffix) are exact.",
  "all matchers of these kinds, all (ASCII) strings",
  "unbounded strings",
  ["glob/match/text.go", "glob/match/any.go", "glob/match/single.go", "glob/match/prefix_suffix.go", "glob/match/any_of.go"])
p("C46", "Compiled globs mean what the grammar says",
  "For patterns that are sequences of texts, *, **, ?, character classes and {..} choices of fixed-width terms, alternatives between such sequences, and alternatives that share one term, and for alternatives nested in sequences nested in alternatives to any depth, also where they share a beginning or an end of any length (written so that alternatives of unknown length do not precede ones that all have one known length), the compiled glob decides exactly the documented language on ASCII input, without panicking, under the conditions on neighbouring terms the theorem states; and for sequences of texts and stars, and for nested patterns without ? and negated classes (with ASCII texts), it decides it on every byte string, valid UTF-8 or not; each condition is needed: outside the fragment concrete patterns are wrong or panic ([!ab][!ab] matches aa; ab*ba matches aba; ? matches the empty string; *.{tar*,zip} rejects a.tarball although *.{zip,tar*} accepts it; a{} panics; {x,a*}* with separator / is right on ASCII but matches a\\xff/).",
  "all patterns of the fragment, all ASCII strings (all byte strings for texts and stars and for nested patterns without ? and negated classes), separators as stated",
  "patterns and strings unbounded",
  ["glob/compiler/compiler.go:Compile", "glob/match/btree.go:BTree.Match", "glob/match/row.go:Row.Match"])
p("C47", "Factoring alternatives preserves meaning",
  "The rewriting of {..} alternatives that share leading or trailing parts (minimizeTreeAnyOf) does not change the set of matched strings of the syntax tree.",
  "all syntax trees, all strings, all separators",
  "unbounded trees",
  ["glob/compiler/compiler.go:minimizeTreeAnyOf", "glob/compiler/compiler.go:commonChildren"])
p("C48", "Rune and segment helpers are correct",
  "runes.Index/Equal/HasPrefix/HasSuffix/IndexAny/Contains/Min/Max give the first occurrence etc. for all inputs; appendMerge of sorted unique lists is the sorted unique union; reverseSegments reverses. (runes.LastIndex misses a match at position 0 of a longer string; IndexAnyRunes is not the first position of any separator, but of the first separator in their order that occurs at all; LastIndexAnyRunes gives the last position of that separator only if it is ASCII, otherwise the first position i, or a panic unless i+1 divides the length of the text.)",
  "all slices",
  "unbounded slices",
  ["glob/util/runes/runes.go", "glob/match/match.go:appendMerge", "glob/util/strings/strings.go"])

p("C49", "Function patterns have the standard's colours",
  "In every symbol qr.Encode returns, each finder, separator, timing, alignment, version and dark module has the colour the standard prescribes for the symbol's version, and everything outside the symbol is white.",
  "all texts, levels and modules",
  "unbounded texts, 40 versions",
  ["qrterminal/qrcode/coding/qr.go:vplan", "qrterminal/qrcode/coding/qr.go:fplan", "qrterminal/qrcode/coding/qr.go:posBox", "qrterminal/qrcode/coding/qr.go:alignBox"])
p("C50", "A damaged symbol still determines the text",
  "If at most half as many codewords as there are check codewords were changed in each block of a symbol, the original blocks are the only Reed-Solomon codewords that close to what was read, so an error-correcting reader recovers the text.",
  "all texts, levels and damages",
  "unbounded texts and all damage patterns",
  ["qrterminal/qrcode/qr.go:Encode", "qrterminal/qrcode/coding/qr.go:Bits.AddCheckBytes"])

p("C51", "The image view is not scaled",
  "The image.Image of a code does not show the symbol as its Bounds announce: for every text and level At ignores Scale and the frame, so the image is the unscaled symbol in the top left corner. (Expected, and refuted: the symbol at Scale pixels per module inside a white frame of 4 modules.)",
  "all symbols, all pixel coordinates",
  "unbounded texts and coordinates",
  ["qrterminal/qrcode/qr.go:Code.Image", "qrterminal/qrcode/qr.go:codeImage.At", "qrterminal/qrcode/qr.go:codeImage.Bounds"])

p("C52", "show -q draws the QR code of the selected text",
  "With -q, show draws after the printed text a QR code that reads back as: all lines, each preceded by ' / ', or, if a non-empty line is selected by -i or -f, that line with the field name's length cut off, trimmed, and without everything up to and including its first colon. It crashes if the selected line is shorter than the field name, and if the text exceeds the largest symbol. (So a selected password containing a colon loses its beginning.)",
  "all stores, entries, options and environments",
  "unbounded contents and schedules",
  ["cmds/show.go:ShowCmd.Run", "qrterminal/qrterminal.go:Generate"])
p("C53", "Which directory is the store",
  "The store is the directory given by --root with environment variables expanded, by default $HOME/Documents/Vault. (On Windows, Linux and macOS --root is ignored; with HOME a clean absolute path the store is HOME/Documents/Vault and works; with HOME unset it is /Documents/Vault; with a trailing slash in HOME the store is seen as empty.)",
  "all environments, flags and file systems",
  "all environments",
  ["main.go:main", "cmds/show.go:ShowCmd.Run", "repo/repository.go:Repository.Scan"])

p("C54", "Clipboard on macOS",
  "Write runs pbcopy with exactly the text on its standard input and returns nil iff it was started, took all of the text and ended successfully; Read returns pbpaste's output.",
  "all texts, all behaviours of the tools",
  "needs all failure points of the external process",
  ["clipboard/clipboard_darwin.go:read", "clipboard/clipboard_darwin.go:write"])
p("C55", "Windows clipboard calls are balanced",
  "For every result of every system call, Read and Write close the clipboard exactly if they opened it, once; every block Write allocates is either freed once or handed to the clipboard, never both; if Write returns nil the text was handed over; every failing call but a try to open is reported, and every error returned is the number of a call that failed. (Exceptions, as theorems: a text with NUL panics with the clipboard open and emptied; if the process is held up a second before the first try, both go on without having opened it.)",
  "all texts, all sequences of system call results",
  "all failure points of a sequence of system calls",
  ["clipboard/clipboard_windows.go:read", "clipboard/clipboard_windows.go:write", "clipboard/clipboard_windows.go:waitOpenClipboard"])
p("C56", "Text survives the Windows clipboard",
  "A valid UTF-8 text of at most 2^20 UTF-16 units written by Write and found in memory by Read is returned unchanged. (Longer texts are cut; invalid bytes come back as U+FFFD.) Whatever Read finds in memory, it returns the characters of the UTF-16 units up to the first zero unit or the 2^20th, an unpaired surrogate counting as U+FFFD.",
  "all texts and memory contents",
  "unbounded texts",
  ["clipboard/clipboard_windows.go:read", "clipboard/clipboard_windows.go:write"])

p("C57", "Segment buffers are always available",
  "Matching takes and returns its segment buffers from a table of pools; for every buffer size the pool chosen is one that was set up, so taking or returning a buffer never panics, and up to 1024 it is the pool of the least sufficient power of two.",
  "all sizes an int can hold",
  "2^63 sizes",
  ["glob/match/segments.go:getTableIndex", "glob/match/segments.go:acquireSegments", "glob/match/segments.go:releaseSegments"])

p("C58", "generate prints the password whatever the clipboard does",
  "The generate command never crashes: it returns the generator's error and prints nothing, or prints one line holding a password of printable ASCII characters and returns nil; what is printed depends only on the random source and on -s, -n, -m, -u, -f and the length, not on the clipboard, -c, --in-place or the name. Without -c no program is started and no system call made. With -c, on macOS only pbcopy is started and sent only the printed password (a beginning of it if it stops reading); on Windows only the printed password, zero-terminated UTF-16, is copied into clipboard memory. (On Unix -c copies nothing. Expected, and refuted: the help's promise that a password is set for the given name.)",
  "all random sources, options, systems and clipboard behaviours",
  "every random source and every failure point of the clipboard",
  ["cmds/generate.go:GenerateCmd.Run", "clipboard/clipboard.go:WriteString", "clipboard/clipboard_darwin.go:write", "clipboard/clipboard_windows.go:write", "clipboard/clipboard_unix.go:write"])

p("C59", "Saving and loading an index",
  "If Save and a later Load both return nil, the loaded index gives exactly the answers (and crashes) of the saved one for every query, provided all words and their substrings are valid UTF-8, in particular for ASCII words; it is never another index or a part; of substrings that are written as the same text the bytewise greatest survives; a failed Save leaves the file as it was or cut short. A loaded document is not checked: a substring of the query listing an undefined word number makes the query panic. (Otherwise invalid UTF-8 pieces of words, which every non-ASCII word has at sizes below its characters' lengths, are never found again: with size 2 the word '€' is found before and not after. Expected, and refuted: nil from Save means the file is complete; the errors of closing are dropped.)",
  "all word lists, sequences of Add, sizes, queries, map orders and points of failure",
  "unbounded word lists and queries, all failure points",
  ["closestmatch/closestmatch.go:ClosestMatch.Save", "closestmatch/closestmatch.go:Load"])
p("C60", "The accuracy measurements return a percentage",
  "AccuracyMutatingWords on a non-empty list without the empty word never panics; it counts at most 200 trials, of which at most all are right; each asks for a list entry with one space-separated word removed (and the rest reversed or shuffled with up to two bytes replaced). AccuracyMutatingLetters, if it returns, counts exactly 200, each asking for an entry with one byte replaced, removed or preceded by a letter. Conversely, on a list of two or more words every entry with every such change can be asked. (On a list of one word the first always returns NaN and the second always panics; both panic with the mutex held on an empty list. Expected, and refuted: AccuracyMutatingLetters returns a number: on every list it panics as soon as one draw is 0.)",
  "all word lists, random sequences, map orders and schedules",
  "all random sequences and schedules",
  ["closestmatch/closestmatch.go:ClosestMatch.AccuracyMutatingWords", "closestmatch/closestmatch.go:ClosestMatch.AccuracyMutatingLetters"])

p("C61", "What was inserted is what is read back",
  "After any sequence of insert commands into an existing store (sources outside the store, category directories that exist, names that are not directories of it), every command has succeeded, list shows exactly the entries there were and those inserted, each once, every entry holds what was inserted for it last and all others are as they were; set-env with an inserted entry's name sets exactly the variables of its env: lines to its first line. Whatever its arguments, insert leaves every directory with distinct names in order.",
  "all stores, all sequences of inserts, all contents, environments and directory orders",
  "unbounded histories",
  ["cmds/insert.go:InsertCmd.Run", "cmds/list.go:ListCmd.Run", "cmds/setenv.go:SetEnvCmd.Run", "repo/repo.go:Repository.Scan"])
p("C62", "Searching the store with a glob",
  "GlobSearch returns one result for each file it was given, whatever the order of the map, and it holds exactly the lines that the pattern's language contains, in order, with their numbers (none for a file that cannot be opened or is binary): for patterns of texts and stars and nested patterns without ? and negated classes on arbitrary file contents, for *text* the lines that contain the text, for a quoted text the lines equal to it, for the other patterns of C46 when the lines are ASCII. It fails if and only if the pattern does not parse, and every search ends.",
  "all stores and file contents, map orders, patterns as stated",
  "unbounded files, patterns, map orders",
  ["repo/repo.go:Repo.GlobSearch", "repo/repo.go:Repo.SearchInFile", "glob/glob.go:Compile"])
p("C63", "Commands given an exact name",
  "show with the exact lower-case path of an entry prints that entry: in any store if no other entry is shorter or has all its pairs of adjacent bytes, or if the numbers of pairs show that it outweighs every other entry; and in stores of moderate size, if no pair of adjacent bytes occurs twice in the path, unless another entry of the same length has all its pairs. In general it is not so: a shorter entry with all the pairs is always shown instead (sites/aba for sites/abab), and between ties any can be shown. search with enough results lists the entry. list with the name of a category that has entries lists exactly that category's entries in order; for one without entries it lists nothing, except that devices and sites stand in for each other. show prints for an entry what was inserted for it last, whatever history of inserts came before.",
  "all stores, names, histories of inserts, map orders, schedules and sort orders",
  "unbounded stores and names; ties are decided by map order",
  ["cmds/show.go:ShowCmd.Run", "cmds/list.go:ListCmd.Run", "cmds/search.go:SearchCmd.Run", "closestmatch/closestmatch.go:ClosestMatch.Closest"])
p("C64", "Index finds the leftmost occurrence and exactly its lengths",
  "Index(s) of a matcher, on valid UTF-8, returns the leftmost position where a string of the matcher's language begins, and exactly the lengths of the strings of the language that begin there, in increasing order without repetition; it returns -1 if and only if no substring is in the language. So for text, **, *, ?, classes and ranges (negated or not), Nothing, Min, Max, Contains, not-Contains of one character, Prefix, PrefixAny, PrefixSuffix with a one-character suffix that is not inside the prefix, for alternatives of such, and for rows of texts and one-character matchers on ASCII; * and PrefixAny with at most one separator. Suffix and SuffixAny give the leftmost position with the shortest length only. An intersection of matchers that answer at the beginning gives exactly their common lengths. Match accepts exactly the strings of the language, except the empty string. In general it is not so: a BTree never finds anything, longer suffixes are not listed, two separators or a suffix inside the prefix give wrong lengths.",
  "all valid UTF-8 strings, texts, character sets, bounds and nested alternatives",
  "unbounded strings and matchers",
  ["glob/match/any.go:Any.Index", "glob/match/contains.go:Contains.Index", "glob/match/prefix_suffix.go:PrefixSuffix.Index", "glob/match/any_of.go:AnyOf.Index", "glob/match/every_of.go:EveryOf.Index", "glob/match/row.go:Row.Index"])
p("C65", "The length a compiled glob reports",
  "If Len() of a compiled glob, or of any matcher inside it, is known (not -1), every string in its language has exactly that many characters, for every pattern that compiles, unless the matcher contains alternatives of which only some have a known length (of {*,abc} the reported length is 3). The lengths a tree keeps of its sides and of itself are those its parts report, also after all optimisations; a row has only members of known length and reports their sum.",
  "all patterns and separators, all strings of the language",
  "unbounded patterns; the lengths drive the compilation and the search",
  ["glob/match/btree.go:NewBTree", "glob/match/row.go:Row.Len", "glob/match/any_of.go:AnyOf.Len", "glob/compiler/compiler.go:optimizeMatcher", "glob/compiler/compiler.go:compileMatchers"])

p("C66", "Environment variables in the root path",
  "The store a command works on is the configured root with every $NAME, ${NAME} and one-character shell variable replaced by the variable's value (nothing if unset): $NAME takes the longest name, a ${ that is never closed and an empty ${} disappear, a $ before anything else stays, values are not expanded again, and no other variable matters.",
  "all root texts and environments",
  "unbounded texts, arbitrary environments",
  ["cmds/show.go:ShowCmd.Run", "cmds/list.go:ListCmd.Run", "cmds/search.go:SearchCmd.Run", "cmds/grep.go:GrepCmd.Run", "cmds/setenv.go:SetEnvCmd.Run", "main.go:main"])
p("C67", "Joined paths stay on the same file; insert follows the name anywhere",
  "The path built from the root and a name is the unique shortest lexical form of root/name, is not changed by cleaning it again, and leads to the same file whenever root/name leads anywhere. insert writes exactly the file the name leads to from the root; a name that never climbs above the root stays in the store, but nothing rejects one that does: ../NAME overwrites a file beside the store.",
  "all roots, names (any mix of . .. and empty elements), directory trees and working directories",
  "unbounded paths and trees",
  ["cmds/insert.go:InsertCmd.Run", "cmds/show.go:ShowCmd.Run", "cmds/search.go:SearchCmd.Run", "cmds/grep.go:GrepCmd.Run", "cmds/setenv.go:SetEnvCmd.Run"])
p("C68", "Matching never crashes or hangs",
  "Match of a compiled glob answers true or false for every string of bytes if the pattern contains no {, whatever the separators; with groups, if the separators are ASCII and every group is settled: not all its alternatives are empty, and an alternative with nothing of its own (all alternatives begin and end with its parts; the empty one, a in {a*,a}) is the first or comes after one made of texts, classes and ranges only. Otherwise Match may panic ({a*,a} on a, x{a*,} on x, a{} on a).",
  "all patterns, separators, nested groups and byte strings",
  "unbounded patterns and strings",
  ["glob/glob.go:Compile", "glob/compiler/compiler.go:Compile", "glob/match/row.go:Row.matchAll", "glob/match/btree.go:BTree.Match", "glob/match/any_of.go:AnyOf.Len", "glob/util/strings/strings.go:LastIndexAnyRunes"])
p("C69", "Matches do not disturb one another",
  "Match may be called at the same time by any number of goroutines, on the same glob or on others: whatever the interleaving of their memory accesses and whatever buffers the shared pools hand out, every call that returns gives the answer it gives alone and crashes only if it crashes alone; every call can always go on, and no schedule is infinite. No two calls race for a buffer, a buffer in use lies in no pool and one in a pool lies there once, and the fixed segments all globs share never change.",
  "all lists of globs and strings, all interleavings of the calls, all choices of the pools and of the capacities append allocates",
  "a test sees few interleavings, and a buffer released twice or too early shows only under some of them",
  ["glob/match/segments.go:acquireSegments", "glob/match/segments.go:releaseSegments", "glob/match/btree.go:BTree.Match", "glob/match/any_of.go:AnyOf.Index", "glob/match/every_of.go:EveryOf.Index", "glob/match/match.go:appendMerge", "glob/match/match.go:reverseSegments", "glob/match/prefix_suffix.go:PrefixSuffix.Index"])
p("C70", "What Cryptor.Encrypt returns",
  "After any calls on a Cryptor made with a key text of 32, 64 or 128 bytes, Encrypt of a text as long as the key text returns the padded base64url text (RFC 4648, section 5) of its Threefish encryption under the key text and the tweak bytes 0 to 15, and a shorter text panics. Refuted for longer texts: every byte after the first block is encoded as a zero byte, so two texts of one length with the same first block cannot be told apart. Decrypt panics exactly when its decoded text is shorter than a block.",
  "all key texts, texts, bits arguments and histories of Encrypt and Decrypt calls, any base64 decoder",
  "unbounded texts, keys and histories; a test sees a few texts",
  ["crypter/cmd/crypt.go:New", "crypter/cmd/crypt.go:Cryptor.Encrypt", "crypter/cmd/crypt.go:Cryptor.Decrypt"])
p("C71", "What the commands globtest and globdraw match with",
  "globtest -p P -s S -f F ends in exactly one way: the usage if P is empty; the message about separators if some piece of S between commas is more than one character; the message about the pattern if P does not compile; otherwise it prints true or false (after \"result: \" with -v) as the glob P with those characters as separators accepts or rejects F. globdraw draws the glob compiled with those separators, or without separators if S is empty. Refuted for globtest without -s: it does not match without separators, because the empty piece counts as U+FFFD, so * rejects exactly the names with U+FFFD or a byte that is no character.",
  "all patterns, values of -s, fixtures and -v",
  "all byte strings for the four flags; a test sees a few ASCII separators",
  ["glob/cmd/globtest/main.go:main", "glob/cmd/globdraw/main.go:main"])
p("C72", "The drawing of globdraw shows the compiled glob",
  "For a pattern and separators without percent signs, double quotes, backslashes and NUL, what globdraw prints is a DOT graph, of one graph only, titled with the pattern, whose vertices and arrows draw the compiled glob's tree (a search tree with its value and two sides, alternatives and conjunctions with their members in order, everything else with its textual form); if the random vertex names differ, the tree can be read back from the graph, and no other. Whatever the pattern, something is printed once it compiles. Refuted without the condition: a part such as %d is shown as %!d(MISSING), because drawn parts are used as formats, and a double quote in the pattern gives text that is no DOT graph.",
  "all patterns, values of -s and random vertex names",
  "all patterns and all random numbers; there are no tests of the drawing",
  ["glob/match/debug/debug.go:Graphviz", "glob/match/debug/debug.go:graphviz_internal", "glob/cmd/globdraw/main.go:main", "glob/match/btree.go:BTree.String", "glob/match/row.go:Row.String", "glob/match/match.go:Matchers.String"])
p("C73", "Searches and Adds at the same time",
  "Closest/ClosestN and Add may be called on one index by any number of goroutines. Whatever the interleaving, no two of them touch the maps at once, no schedule is infinite or stuck, no Add is lost (the index is that of the Adds run one after another in some order), and without empty words nothing crashes. A search looks up every substring of the query once, each in a version of the index that was current at some time during the search, none older than its call, and sums the points; if no Add completes during it, it returns what it returns alone. Refuted: that it returns the result before or the result after an Add (every mixture can happen, and a word may win that wins neither before nor after), and that the order of two Adds does not matter.",
  "all indexes, queries, lists of words, numbers of calls, interleavings and map iteration orders",
  "a test sees few interleavings",
  ["closestmatch/closestmatch.go:ClosestMatch.match", "closestmatch/closestmatch.go:ClosestMatch.worker", "closestmatch/closestmatch.go:ClosestMatch.Add"])
p("C74", "Scanning a store with links, permissions and changes under way",
  "Scan is a sequence of system calls on a file system that other processes may change between any two of them. Whatever they do, everything a finished Scan lists was, at moments during the Scan, a name read from one of the six category directories and something other than a directory; an entry that is there throughout is listed; nothing is listed twice; the error is returned only if the root was missing, the process dies only if a call at or below the root was refused, and it panics only if the root was not a directory. On a file system at rest with symbolic links and permissions there is exactly one result: the process dies if and only if a directory that cannot be listed (.git included) or that holds something and cannot be searched is met, otherwise exactly the files and links directly in category directories are listed, dangling links and links to directories included, and a category that is a link is ignored; without links and restrictions it is the Scan of C31. Refuted: that a root that is a symbolic link to a store works (it panics), that the listing is the store at some moment (an entry moved between categories is missed although it is always there), that removing an entry during a Scan is harmless (it can end the process).",
  "all roots, file systems with any links and permissions, and all histories of changes between the system calls",
  "a test cannot try every change at every moment",
  ["repo/repo.go:Repo.Scan"])
p("C75", "Reading lines when reads fail or the file changes meanwhile",
  "GetFileContentByLine and SearchInFile read an open file in pieces. Whatever the reads deliver, the handler sees exactly the lines of the bytes delivered (up to the first overlong line), as of a file with that content; the reading ends for every content. If the file only grows meanwhile and no read fails, these are the lines the file had at the moment of the last read. A read error is taken for the end of the file: the lines before it and the part of the line it fell into are shown, no error is returned. Refuted: that a file rewritten in place while it is read is shown as it was before or after (a line it never had may be shown).",
  "all replies of the reads, handlers, contents and histories of the file",
  "a test cannot fail every read or change the file between any two reads",
  ["repo/repo.go:GetFileContentByLine", "repo/repo.go:SearchInFile"])
p("C76", "insert interrupted, with failing calls, and run several times at once",
  "insert --file is a sequence of system calls: it creates the target, then reads and writes pieces of any size. Stopped at any moment (a crash), with any read or write failing, and with any number of other inserts running at the same time, it changes nothing but the targets, makes no directory, and every byte of a changed target comes from one of the sources inserted there or is a zero byte. A target that only one insert has is untouched or holds a beginning of the source, all of it once the insert has returned and no call has failed; creating it fails exactly when its directory is missing or it is a directory, and that is the only error reported. Every insert can always go on, and takes at most 2n+2 calls for n bytes. Refuted: that an insert that returned no error stored the source (a failed read or write is dropped: any beginning may be left, and what was there is lost), and that two inserts of one name leave the text of one of them.",
  "all file systems, sources, targets, piece sizes, failures, moments of a crash and interleavings of any number of inserts",
  "a test cannot stop the program after each system call or try every interleaving",
  ["cmds/insert.go:InsertCmd.Run"])
p("C77", "Ciphers shared by goroutines",
  "Encrypt64 and Decrypt64 may be called on one cipher by any number of goroutines at once: whatever the interleaving of their memory accesses each gives the Threefish result for its own block. Encrypt and Decrypt may not: they share two buffers in the cipher. If only one call on a cipher uses them, it is exact whatever else goes on; calls on different ciphers never disturb each other; SetKey and SetTweak with no other call on the cipher have their usual effect; a cipher is as good as new afterwards, and every call ends. With several such calls on one cipher, every word delivered is a word of an encryption or decryption by one of the calls of a block put together from the words of their blocks, and no more can be promised: for every key and any two blocks both calls can return the second's answer (Encrypt can deliver what another goroutine has just decrypted), or the answer for a mixture of the blocks. Encrypt64 during SetKey may use an expanded key that belongs to neither key.",
  "all ciphers after any history, keys, tweaks, blocks, numbers of calls and interleavings of their memory accesses",
  "a test sees few interleavings",
  ["crypter/crypter.go:Cipher.Encrypt", "crypter/crypter.go:Cipher.Decrypt", "crypter/crypter.go:Cipher.Encrypt64", "crypter/crypter.go:Cipher.Decrypt64", "crypter/crypter.go:Cipher.SetKey", "crypter/crypter256.go:threefish256.getTempData", "crypter/crypter512.go:threefish512.getTempData", "crypter/crypter1024.go:threefish1024.getTempData"])
p("C78", "insert with a source inside the store",
  "The source of insert --file may be an entry, the target itself, or what another insert is writing. Stopped at any moment, with any calls failing and any number running at once, inserts change nothing but their targets, lose no file, and every byte of a changed target is, at its place, a byte of a source from which inserts lead to it, directly or one through the other, or a zero byte; no target grows beyond the longest source, no insert gets stuck, and all of them end within 2m+2 calls each (m the length of the longest source), although they may read what is being written. An insert whose source nobody writes and whose target is its own behaves as if alone. Refuted: that inserting an entry from itself leaves it alone (it is empty as soon as the insert has begun, and no error is returned), and that two entries can be exchanged by two inserts (both can end up empty, with no error).",
  "all directory trees, numbers of inserts, sources and targets, piece sizes, interleavings, crash points and failing calls",
  "a test sees few interleavings and crash points",
  ["cmds/insert.go:InsertCmd.Run"])
p("C79", "How long a match takes",
  "Matching a text of n bytes against a pattern made of k texts with * between them (with or without * at the ends, any separators) takes fewer than (2n+2)^k accesses to the segment lists, so a pattern with a fixed number of texts is polynomial in the text. Expected, and refuted: that matching takes a number of steps bounded by a power of the length of the pattern and the text together. The pattern b*a*a*...a* with n times a* takes exactly 2^n - 1 accesses on the text aaa...a of n bytes, whatever the separators, before it answers no: a pattern of 82 bytes on a text of 40 never ends in practice, and it blocks the command that searches with it.",
  "all patterns of texts and stars, separators, texts, and every state of the segment pool",
  "a test sees a few patterns; a growth rate is a statement about all sizes",
  ["glob/match/btree.go:BTree.Match", "glob/compiler/compiler.go:compileMatchers", "glob/match/text.go:Text.Index"])
p("C80", "Reed-Solomon encoders shared by goroutines",
  "Any number of goroutines call ECC, on the same RSEncoder or on different ones, interleaved access by access. Calls on different encoders never disturb each other, crash or hang, and every call gives the check bytes it would give alone. On one encoder, a call with more data than any other call on it so far, and every call that finds the encoder's buffer too small when it begins, gives the check bytes of its data, unless some call has written beyond an array. If the buffer is already long enough for all calls, no call crashes, hangs or writes beyond an array, all end within a stated number of accesses, and afterwards the encoder works as before. Expected, and refuted: that calls sharing an encoder give the check bytes of their own data (two calls with data of equal length: the first can return the code of the data of the second), that a call with room for the check bytes does not crash (three calls on a new encoder), and that calls which have returned leave the encoder usable (two calls on a new encoder, both right, and a later call that is alone writes beyond its buffer).",
  "all fields, encoders, numbers of check bytes, data, numbers of calls, interleavings",
  "a test sees a few interleavings and lengths",
  ["qrterminal/qrcode/gf256/gf256.go:RSEncoder", "qrterminal/qrcode/gf256/gf256.go:RSEncoder.ECC", "qrterminal/qrcode/gf256/gf256.go:NewRSEncoder"])
p("C81", "Generate called by several goroutines",
  "The comment on Generate says that it is safe for concurrent use. Any number of goroutines call it, on one generator or on several that share the reader, and the reader hands out its bytes in pieces of any size, or fails, at any moment. Every call that has returned gives exactly what it would have given alone on the bytes it got (the password, the refusal, the reader's error), every byte of the stream goes to at most one call, and so every password has the length, the numbers of digits and symbols and, if asked for, no repeated byte. No call waits for another: at any moment a call whose bytes so far, followed by the rest of the stream, make Generate succeed can finish with that password while all others stand still. However the calls are scheduled, even by a scheduler that sees the bytes, each combination of byte strings on which the calls succeed comes from exactly one stream: passwords generated at the same time are as independent as passwords generated one after the other. Expected, and refuted: that this holds for any reader. With a reader that is not itself safe for concurrent use (such as bytes.Reader) two calls can both return the very password one call would have returned, for every stream.",
  "all generators, requirements, numbers of calls, random streams, sizes of reads, failures and interleavings",
  "a test sees a few interleavings, and independence is a statement about all streams",
  ["password/generate.go:Generator.Generate", "password/generate.go:randomElement", "password/generate.go:randomInsert", "password/generate.go:NewGenerator"])
p("C82", "The probability of a password",
  "For a request that is not refused, with sets of distinct ASCII characters that do not overlap (as the defaults): on random bytes Generate returns with probability 1, that is, the share of the N-byte streams that do not suffice tends to 0 as N grows. The valid passwords with c letters, d digits and s symbols number (c+d+s)!/(c! d! s!) times the ways to choose c letters, d digits and s symbols one after the other (n^t from n characters with repeats, n(n-1)...(n-t+1) without), and each of them is returned with probability exactly one in that number: the share of streams giving it tends to it from below.",
  "all generators with such sets, requests, passwords, and all lengths of the stream",
  "a probability is a statement about all streams",
  ["password/generate.go:Generator.Generate", "password/generate.go:randomElement", "password/generate.go:randomInsert"])
p("C83", "The passwords that follow a form are equally likely",
  "`generate --form F`, for a form F without 'a' and unless --mixed and --unique are combined: for every number N of random bytes every two passwords that follow the form (with --unique: no letter, digit or symbol used twice) are printed on equally many of the N-byte streams; nothing else is printed; their number is 26^(x and X) * 10^n * 30^s (falling factorials with --unique), with or without --mixed, and each is printed with probability 1 over that number. The two excluded cases fail: --mixed --unique prints the same letter twice for \"xx\" half as often as two given different letters, and \"ax\" never prints two different letters.",
  "all forms, flag combinations, numbers of random bytes, pairs of outcomes",
  "a statement about counting all random streams",
  ["cmds/generate.go:GenerateCmd.Run", "password/generate.go:Generator.Generate"])
p("C84", "A refused glob pattern is refused for one reason, and the error says which",
  "Parsing a glob pattern always returns, for any bytes: a tree or an error, never an index out of range or an endless loop, in a number of steps linear in the length. The lexer hands out its tokens one by one and once it has returned an error returns the same one for ever. A pattern without NUL is either one of the accepted grammar or is refused for exactly one reason: good terms followed by bytes that are no readable character (could not read rune), by a class that is never closed (unexpected end of input), a range not followed by ] (expected close range character), a range in the wrong order (the message names both characters), or an empty class (could not parse range). No other text can appear, NUL or not: the program's remaining four error texts cannot come up.",
  "all byte strings; all numbers of calls of Next",
  "every pattern has to be classified, and every point where the lexer can stop",
  ["glob/syntax/lexer/lexer.go:lexer.Next", "glob/syntax/lexer/lexer.go:lexer.fetchItem", "glob/syntax/lexer/lexer.go:lexer.fetchRange", "glob/syntax/lexer/lexer.go:lexer.unread", "glob/syntax/ast/parser.go:Parse"])
p("C85", "A compiled glob is linear in its pattern",
  "Whatever pattern glob.Compile accepts - groups nested to any depth, with shared beginnings and ends that are factored out, duplicate alternatives, runs of wildcards glued together, sequences split into search trees - the matcher it returns is no larger than a constant times the pattern: counting every matcher object and every byte of text, separator and class character they hold, at most 7 (plus 4 for each separator) a byte of the pattern, plus 1. So is the nesting of the calls of Match. A pattern standing for exponentially many strings is never written out.",
  "all byte strings that compile; all separator lists",
  "no test bounds the matcher of every pattern; one rewriting step that copies what it factors out would make some nested pattern explode",
  ["glob/compiler/compiler.go:Compile", "glob/compiler/compiler.go:minimizeTreeAnyOf", "glob/compiler/compiler.go:minimizeMatchers", "glob/compiler/compiler.go:compileMatchers", "glob/glob.go:Compile"])
p("C86", "Pictures of different texts are far apart, and a scratch can be put right",
  "Encode two different texts at the same level and let the symbols have the same size: their pictures differ in more modules than the number k of check codewords in a block of that version and level (at least 7, up to 30). Symbols of the same size differ in at least 8 modules if the texts differ, whatever the levels, and in at least 14 if the levels differ. So no picture is within k/2 modules of the symbols of two texts at one level. And whichever at most k/2 modules of a symbol are flipped, outside the format information, a reader gets blocks of codewords for which Reed-Solomon blocks within k/2 exist, and the data of whichever it finds is the text that was encoded.",
  "all pairs of texts; all levels and versions; all sets of damaged modules of that size outside the format information",
  "all pairs of texts and all patterns of damage have to be ruled out",
  ["qrterminal/qrcode/qr.go:Encode", "qrterminal/qrcode/qr.go:Code.Black", "qrterminal/qrcode/coding/qr.go:Plan.Encode", "qrterminal/qrcode/coding/qr.go:Bits.AddCheckBytes", "qrterminal/qrcode/gf256/gf256.go:RSEncoder.ECC"])
p("C87", "Patterns can be rewritten by the usual laws",
  "For the nested patterns of C46, as the user writes them, on non-empty ASCII text: braces distribute (P{a1,..,an}Q accepts exactly what one of Pa1Q, .., PanQ accepts, and refuses exactly what all of them refuse, provided writing them out does not put two stars side by side); neither the order of the alternatives of a pattern {..} nor repeating one matters; {p} and p give the same answers; without separators * and ** do; and taking separators away never loses a match. Expected of every pattern, and refuted: *.{tar*,zip} refuses a.tarball although *.tar* and *.{zip,tar*} accept it.",
  "all patterns of the fragment of C46 together with the patterns the law turns them into; all ASCII separators; all non-empty ASCII texts",
  "each law relates the answers of two or more compiled globs on every text; the optimisations that could break it depend on the neighbours of a term",
  ["glob/glob.go:Compile", "glob/compiler/compiler.go:Compile", "glob/compiler/compiler.go:minimizeTreeAnyOf", "glob/compiler/compiler.go:glueMatchers", "glob/syntax/ast/parser.go:Parse", "glob/match/any_of.go:AnyOf.Match", "glob/match/btree.go:BTree.Match"])
out = os.path.join(os.path.dirname(os.path.abspath(__file__)), "..", "properties.jsonl")
with open(out, "w") as f:
    for r in P: f.write(json.dumps(r, ensure_ascii=False) + "\n")
print(len(P), "properties")

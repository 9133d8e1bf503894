notes["C06"] = "The statement records the exact (faulty) behaviour; the naive claim is false of the code and refuted."
notes["C07"] = "The statement records the exact (faulty) behaviour; the naive claim is false of the code and refuted."
notes["C25"] = "The statement records the exact (faulty) behaviour; the naive claim is false of the code and refuted."
notes["C51"] = "The statement records the exact (faulty) behaviour; the naive claim is false of the code and refuted."
notes["C29"] = "All clauses of the statement; C29_exact_entry_first_refuted is the counterexample to the naive claim."
notes["C30"] = "C30_found_iff is the whole claim; C30_refuted is the counterexample to the naive claim."
notes["C31"] = "Proved for clean roots (the English claim); for roots with a trailing slash or '.' the claim fails, with counterexamples as _refuted theorems."
notes["C34"] = "The names are opened relative to the working directory: C34_searches_wrong_directory_refuted shows the store's files are not searched from elsewhere, C34_search_from_root that from the store's directory every entry is searched, with exactly its matching lines."
notes["C36"] = "Exact for every run; C36_set_env is the English claim when no selected entry is binary, and C36_binary_file_order_refuted shows that with a binary file the result depends on map order."
notes["C38"] = "A negative --fuzzy crashes (C38_negative_fuzzy_panics); otherwise as claimed."
notes["C40"] = "insert works as claimed for an expanded root and a source other than the target; with the default root it always fails because $HOME is not expanded, and inserting an entry from itself empties it (_refuted theorems)."
notes["C52"] = "C52_qr_text is the whole claim; the other theorems are consequences for colons and field names; C52_trimmed says what trimming is, on every valid UTF-8 text."
notes["C53"] = "The unconditional claim is false (flag ignored, trailing slash); the exact behaviours are proved."
notes["C41"] = "The statement records the exact (faulty) behaviour; the naive claim is false of the code and refuted."
notes["C45"] = "Each matcher kind against its language (GlobProps3); the empty-string exceptions of Single and the negated classes are the _refuted theorem and the side conditions."
notes["C46"] = "Proved on the fragments of GlobFragment.v and GlobNestSpec.v (nested alternatives, with shared beginnings and ends; C46_nested_covers: it contains the flat one), on ASCII strings with [item false], on all byte strings with [item true] (GlobBytesProps.v); C46_refuted gives, for each side condition, a pattern outside it whose glob is wrong or panics."
notes["C66"] = "C66_expansion is the whole claim (equivalence with an inductive specification)."
notes["C67"] = "C67_insert_outside_store_refuted: the claim that insert stays inside the store is false of the code; C67_converse_refuted: a cleaned path may exist where the original does not."
notes["C68"] = "C68_refuted: for each condition a pattern without it whose Match panics."
notes["C69"] = "C69_concurrent, C69_progress, C69_ends (every schedule), C69_race_free, C69_pooled_once, C69_constants; GlobMem models each memory access as a step."
notes["C70"] = "C70_encrypt_exact gives every answer; C70_rest_is_lost_refuted: the claim is false for texts longer than a block."
notes["C71"] = "C71_no_s_is_no_separators_refuted: without -s globtest uses U+FFFD as a separator. Not modelled: package flag, the benchmark lines of -v."
notes["C72"] = "C72_percent_refuted, C72_quote_refuted: percent signs in parts and double quotes break the drawing. Not modelled: formats with flags, widths or argument indices without arguments (then the model allows any text)."
notes["C75"] = "C75_error_is_silent: a failed read is not reported; C75_torn_refuted: a file rewritten in place."
notes["C74"] = "C74_root_link, C74_snapshot_refuted, C74_removal_kills show what fails: a root that is a link, changes during the Scan."
notes["C73"] = "C73_neither_refuted, C73_adds_order_refuted: a search is not atomic with respect to an Add, and two Adds number their words alike."
notes["C76"] = "C76_failure_is_silent: any beginning of the source may be left without an error; C76_mixture_refuted: two inserts of one name. The sources are no targets, and no other program renames or removes the files meanwhile."
notes["C77"] = "C77_exchange_refuted, C77_mixture_refuted, C77_key_refuted: the byte methods and the setters are not safe for concurrent use. 64-bit words are read and written whole (a 64-bit machine)."
notes["C78"] = "C78_itself and C78_exchange_refuted: an entry inserted from itself, or two exchanged at once, are emptied without an error. The source is read by name: no links, and nothing renames files."
notes["C79"] = "C79_polynomial_refuted: 2^n - 1 accesses to segments for b*a*...a* on n times a (exactly). Steps counted are the accesses to shared segment lists (len, index, pool get and put); comparisons of bytes inside one matcher call are not counted, so these are lower bounds on time. The upper bound is for patterns of texts and stars."
notes["C80"] = "C80_exchange_refuted, C80_crash_refuted, C80_after_refuted: an RSEncoder must not be shared (its field p is a hidden shared buffer). The words of the slice header rs.p are accessed one by one in no fixed order, as the Go memory model allows; an access beyond an array is a state Wild, after a write of that kind nothing is claimed. Data and check slices are the calls' own."
notes["C81"] = "C81_unsafe_reader_refuted: the claim \"safe for concurrent use\" depends on the reader given to NewGenerator. Modelled: the steps of rand.Int and io.ReadFull with short reads and failures; the Generator itself is only read. C81_joint is for schedulers that decide byte by byte (a Read of j bytes is j decisions for the same call; C81_scheduled says these runs are executions of the model)."
notes["C82"] = "Limits are stated with naturals: for every q the deviation is at most one q-th from some length on (same = c! d! s!, choices = (c+d+s)! times the selections; probability same/choices). Fuel: large enough for the N-byte streams. crypto/rand is taken to deliver uniform independent bytes."
notes["C83"] = "Proved about generate_run (C37) with the streams counted as in C11/C82: C83_equally_likely, C83_only_outcomes, C83_number, C83_probability; the two _refuted theorems show that --mixed with --unique, and forms with a, are not uniform."
notes["C84"] = "Model with the lexer's fields (pos, err, queue, termsLevel, lastRune, lastRuneSize, hasRune); slicing outside the pattern is a panic, loops have fuel and running out is a hang. C84_messages is an equivalence with the specification GlobErrSpec.refused. The token text in \"unexpected token: %s\" is left out of the model: C84_texts shows that this error never comes up."
notes["C85"] = "size (GlobSizeSpec.v) counts objects and the bytes they hold; shared Go slices are counted once per holder, so real memory is smaller. bytes p: every Go string. The constant is not claimed to be the best one."
notes["C86"] = "changed counts modules of the n by n picture, function patterns included. The reader is QrSpec.read_symbol (the standard's, written independently of the encoder); its error correction is any search for Reed-Solomon blocks within half the distance, no particular decoder is modelled."

notes["C87"] = "Corollaries of C46 and C44 that relate several globs, with the fragment of C46 as hypothesis for each pattern involved. C87_distributes_refuted: the law fails outside the fragment."

{"id": "C01", "title": "Every built-in PRBS polynomial is maximal length", "statement": "For each member of PrbsEnum (PRBS7/9/11/13/15/31), the shift register driven by get_polynomial(type) from any non-zero binary seed returns to that seed after exactly 2**n-1 steps and not earlier, and passes through every non-zero n-bit state exactly once in that period.", "quantifier": "all six PRBS types, all non-zero binary seeds of matching length, all step counts", "why_tests_cant": "The period of PRBS31 is 2147483647 and there are 2**31-1 seeds; a test samples a handful of states.", "anchors": ["CommDspy/auxiliary.py:get_polynomial", "CommDspy/tx/prbs_generator.py:prbs_generator", "CommDspy/constants.py:PrbsEnum"]}
{"id": "C02", "title": "prbs_gen produces the LFSR recurrence at every length", "statement": "For each PRBS type, every binary seed and every requested length, tx.prbs_gen returns exactly that many bits, bit i being the mod-2 dot product of the polynomial with the previous n bits, also beyond 2**n-1 where the implementation tiles one period instead of running the register. For a user polynomial that is not maximal length the tiling is wrong (finding, witness proved).", "quantifier": "all six types, all binary seeds, all output lengths (shorter and longer than a period)", "why_tests_cant": "Lengths beyond a period for PRBS31 cannot be run, and the tiling shortcut is only correct because of the algebraic period.", "anchors": ["CommDspy/tx/prbs_generator.py:prbs_generator"]}
{"id": "C03", "title": "prbs_gen can be resumed from the returned seed", "statement": "Generating a bits, then b more bits from the returned seed, gives the same a+b bits and the same final seed as one call asking for a+b bits.", "quantifier": "all six types, all binary seeds, all pairs of lengths (including 0, lengths below n and beyond the period)", "why_tests_cant": "It is a law over all pairs of lengths; the seed is computed by two different branches.", "anchors": ["CommDspy/tx/prbs_generator.py:prbs_generator", "example_simulation/simulation_parts/transmitter.py:PrbsGen"]}
{"id": "C04", "title": "PrbsIterator agrees with prbs_gen", "statement": "After any number k of next() calls the bits popped equal prbs_gen(poly, seed, k), get_seed() is the seed prbs_gen would return, and get_prev_seed() is the register before the last call (None before the first). If the lengths of polynomial and seed differ, both raise ValueError as soon as a bit is asked for.", "quantifier": "all six types, all binary seeds, every number of next() calls", "why_tests_cant": "Unbounded call histories on a stateful object.", "anchors": ["CommDspy/tx/prbs_iterator.py:PrbsIterator"]}
{"id": "C05", "title": "PRBS sequences are balanced and have the two-valued autocorrelation", "statement": "One period of any built-in PRBS contains exactly 2**(n-1) ones, and the NRZ correlation of the period with a cyclic shift of itself is 2**n-1 for the zero shift and -1 for every other shift.", "quantifier": "all six types, all non-zero seeds, all shifts", "why_tests_cant": "2**31 shifts each summing 2**31 terms.", "anchors": ["CommDspy/tx/prbs_generator.py:prbs_generator", "CommDspy/rx/lock_pattern.py:lock_pattern_to_signal_binary"]}
{"id": "C06", "title": "bin2symbol / symbol2bin round trip under all flags", "statement": "For 2**k symbols, symbol2bin(bin2symbol(bits, 2**k, flags), 2**k, flags) returns bits truncated to a multiple of k, and bin2symbol(symbol2bin(syms)) returns syms, for the same setting of bit_order_inv, inv_msb, inv_lsb and pn_inv on both sides; with a single symbol and k>1 symbol2bin raises as soon as inv_msb, inv_lsb or bit_order_inv is set (finding).", "quantifier": "all bit streams, all k>=1, all 16 flag combinations", "why_tests_cant": "Infinitely many streams and symbol sizes; the failing length-1 case is easy to miss.", "anchors": ["CommDspy/tx/bin2symbol.py:bin2symbol", "CommDspy/rx/symbol2bin.py:symbol2bin"]}
{"id": "C07", "title": "bin2symbol computes the documented symbol value", "statement": "Without flags symbol j is sum of bit[j*k+i]*2**i (left-most bit least significant), the flags flip the documented bits, trailing bits that do not fill a symbol are dropped, every symbol lies in [0,2**k), and a non power-of-two symbol count of at most 8192 is rejected with ValueError.", "quantifier": "all bit streams, all k, all flags", "why_tests_cant": "Value law over all streams and symbol widths.", "anchors": ["CommDspy/tx/bin2symbol.py:bin2symbol"]}
{"id": "C08", "title": "mapping then demapping is the identity", "statement": "For every constellation, every array of valid symbol indices and both settings of pn_inv, demapping(mapping(x)) with the same pn_inv returns x with its shape; the levels are -1, 1 (NRZ), 0, 1 (OOK), -1, 0, 1 (PAM3) and -3, -1, 1, 3 (PAM4), negated under pn_inv; with custom levels of the wrong count mapping raises ValueError; an index outside the constellation raises IndexError or wraps (negative).", "quantifier": "all constellations, all index arrays of any shape, both polarities", "why_tests_cant": "Unbounded arrays; index wrap-around behaviour of numpy is only visible on inputs tests avoid.", "anchors": ["CommDspy/tx/mapping.py:mapping", "CommDspy/rx/demapping.py:demapping", "CommDspy/auxiliary.py:get_levels"]}
{"id": "C09", "title": "Full-scale levels have unit mean power and still demap exactly", "statement": "get_levels(c, full_scale=True) has mean square exactly 1 for every constellation (over the reals) and demapping with full_scale=True inverts mapping with full_scale=True; the latter also holds bit-exactly in IEEE double arithmetic for every level of every constellation, and every double precision level is within 2^-52 of the exact one.", "quantifier": "all constellations, all index arrays, both polarities", "why_tests_cant": "Real-number identity with square roots; float rounding has to be excluded for every level.", "anchors": ["CommDspy/auxiliary.py:get_levels", "CommDspy/tx/mapping.py:mapping", "CommDspy/rx/demapping.py:demapping"]}
{"id": "C10", "title": "demapping with pn_inv overwrites the caller's array", "statement": "demapping(signal, ..., pn_inv=True) leaves the array object the caller passed negated, so demapping the same array object twice does not give the same answer unless the signal is symmetric (finding); with pn_inv=False the caller's array is unchanged.", "quantifier": "all signals", "why_tests_cant": "Aliasing effects are invisible to tests that only look at return values.", "anchors": ["CommDspy/rx/demapping.py:demapping"]}
{"id": "C11", "title": "Gray level table", "statement": "get_gray_level_vec(m) has m entries, entry i is i xor (i>>1), consecutive entries differ in exactly one bit, and all entries are distinct.", "quantifier": "all level counts m>=1", "why_tests_cant": "All m.", "anchors": ["CommDspy/auxiliary.py:get_gray_level_vec"]}
{"id": "C12", "title": "Gray coding round trip", "statement": "decoding_gray(coding_gray(x, c), c) = x for OOK, NRZ and PAM4 and all symbol arrays; for PAM3 coding_gray emits the symbol 3, which is outside the constellation, and decoding it raises IndexError (finding).", "quantifier": "all symbol arrays, all constellations", "why_tests_cant": "Arrays are unbounded; decoding reuses the encoding table, which is only an inverse because the permutation is an involution.", "anchors": ["CommDspy/tx/coding.py:coding_gray", "CommDspy/rx/decoding.py:decoding_gray"]}
{"id": "C13", "title": "Differential coding", "statement": "coding_differential emits y[n] = (x[n] + y[n-1]) mod m with y[-1]=0 in flattened order, and decoding_differential inverts it on 1-D arrays for every valid symbol sequence; on 2-D arrays with several rows the decoder restarts at every row while the encoder does not, so the round trip fails in the first column (finding).", "quantifier": "all constellations, all symbol arrays", "why_tests_cant": "Running sums over unbounded histories; the 2-D defect depends on shape.", "anchors": ["CommDspy/tx/coding.py:coding_differential", "CommDspy/rx/decoding.py:decoding_differential"]}
{"id": "C14", "title": "Manchester coding: round trip, transitions and single-error detection", "statement": "decoding_manchester(coding_manchester(x)) = x for every binary array; the coded stream has a transition inside every bit cell and equally many 0s and 1s; flipping any one coded bit makes exactly that decoded bit 0.5 and leaves all others unchanged; odd-length input raises ValueError.", "quantifier": "all binary arrays, all error positions", "why_tests_cant": "All arrays times all error positions.", "anchors": ["CommDspy/tx/coding.py:coding_manchester", "CommDspy/rx/decoding.py:decoding_manchester"]}
{"id": "C15", "title": "Bipolar (AMI) coding", "statement": "coding_bipolar maps 0 to 1 and marks alternately to 0 and 2 starting with 0; decoding_bipolar inverts it with and without error_detection; with error_detection a mark is replaced by +-0.5 exactly when the previous or next mark has the same sign, and any single symbol error with a mark before it and a mark after it is flagged; the sign of the flag is wrong (+0.5) for same-sign -1 marks at the beginning of the stream (finding).", "quantifier": "all binary arrays, all received ternary sequences, all error positions", "why_tests_cant": "Error patterns and histories are unbounded.", "anchors": ["CommDspy/tx/coding.py:coding_bipolar", "CommDspy/rx/decoding.py:decoding_bipolar"]}
{"id": "C16", "title": "MLT-3 coding", "statement": "coding_mlt3 stays at its level on 0 and advances along the cycle 0,1,2,1 on 1, starting from level 0 (not from level 1 as the docstring says); consecutive coded levels differ by at most 1; decoding_mlt3 inverts it on every non-empty 1-D binary array and raises IndexError on the empty one.", "quantifier": "all binary arrays", "why_tests_cant": "Unbounded histories.", "anchors": ["CommDspy/tx/coding.py:coding_mlt3", "CommDspy/rx/decoding.py:decoding_mlt3"]}
{"id": "C17", "title": "Differential Manchester coding", "statement": "The coded stream toggles at every bit-cell boundary, toggles inside the cell exactly for 0 bits, so no level lasts longer than two half-cells; decoding_differential_manchester inverts it and is insensitive to inverting the whole line.", "quantifier": "all binary arrays", "why_tests_cant": "Unbounded histories.", "anchors": ["CommDspy/tx/coding.py:coding_differential_manchester", "CommDspy/rx/decoding.py:decoding_differential_manchester"]}
{"id": "C18", "title": "Linear block encoding is a linear map on zero-padded blocks", "statement": "coding_linear pads with zeros to a multiple of k, emits ceil(len/k)*n bits, block b of the output is block b of the input times G over GF(2), and encoding the xor of two equal-length patterns is the xor of the encodings.", "quantifier": "all binary patterns, all k x n binary matrices", "why_tests_cant": "All G and patterns.", "anchors": ["CommDspy/tx/coding.py:coding_linear"]}
{"id": "C19", "title": "Linear block decoding is nearest-codeword decoding", "statement": "decoding_linear returns, block by block, a data word whose codeword has minimum Hamming distance to the received block among all 2**k codewords (the smallest such word numerically); error_prob=True returns the same bits plus 0 for blocks that are codewords and otherwise 1/(number of nearest codewords).", "quantifier": "all binary received patterns, all binary G", "why_tests_cant": "Optimality against every alternative word for every received block.", "anchors": ["CommDspy/rx/decoding.py:decoding_linear", "CommDspy/misc/ml_decoding.py:ml_decoding", "CommDspy/auxiliary.py:get_bin_perm"]}
{"id": "C20", "title": "Linear block codes correct up to half the minimum distance", "statement": "If any two different data words have codewords at distance at least 2t+1, then decoding_linear recovers the zero-padded data whenever each received block has at most t bit errors (t=0: plain round trip for injective G).", "quantifier": "all G, all t, all patterns, all error patterns with at most t errors per block", "why_tests_cant": "All error patterns.", "anchors": ["CommDspy/tx/coding.py:coding_linear", "CommDspy/rx/decoding.py:decoding_linear"]}
{"id": "C21", "title": "decoding with error_prob=True overwrites the caller's received pattern", "statement": "decoding_linear(pattern, G, error_prob=True) writes the corrected codewords into the array the caller passed (only the trailing incomplete block is left alone); with error_prob=False the caller's array is unchanged (finding).", "quantifier": "all received patterns, all G", "why_tests_cant": "Aliasing is invisible in return values.", "anchors": ["CommDspy/misc/ml_decoding.py:ml_decoding", "CommDspy/rx/decoding.py:decoding_linear"]}
{"id": "C22", "title": "Convolutional encoder equals the trellis walk", "statement": "coding_conv(pattern, G, feedback, use_feedback) emits exactly the outputs met when walking the Trellis built for the decoders from the all-zero state, provided every input is feedback-free or every input with delayed taps has a feedback polynomial; when feedback is given but some input has none, the Trellis ignores that input's delayed taps and disagrees with the encoder (finding). The zi argument has no effect (finding), and a one-tap generator is filtered with the feedback polynomial even where use_feedback is 0 (finding). Encoder and decoders refuse binary settings with ValueError exactly when feedback and use_feedback do not belong together. Arithmetic is exact integers.", "quantifier": "all patterns, all generator/feedback sets passing the validity check", "why_tests_cant": "Equivalence of a filter bank with a finite state machine on unbounded input.", "anchors": ["CommDspy/tx/coding.py:coding_conv", "CommDspy/misc/ml_decoding.py:create_trellis_bin", "CommDspy/misc/help_functions.py:check_valid_conv"]}
{"id": "C23", "title": "Convolutional encoder is linear and causal", "statement": "With or without feedback (exact arithmetic), coding_conv of the xor of two equal-length patterns is the xor of the codings; the first outputs depend only on the first inputs (prefix property).", "quantifier": "all patterns and all generator sets", "why_tests_cant": "All pairs of patterns.", "anchors": ["CommDspy/tx/coding.py:coding_conv"]}
{"id": "C24", "title": "Recursive convolutional encoding loses exactness in floating point", "statement": "coding_conv runs the feedback recursion in double precision before reducing modulo 2; for feedback 1+D+D^3 the running value leaves the exactly representable integers and the emitted bits differ from the GF(2) recursion (finding, witness in IEEE arithmetic).", "quantifier": "existence of a valid input on which the float encoder and the GF(2) encoder differ", "why_tests_cant": "The failure only starts after dozens of samples and depends on the polynomial.", "anchors": ["CommDspy/tx/coding.py:coding_conv"]}
{"id": "C25", "title": "Block ML convolutional decoding is nearest-codeword over all start states", "statement": "decoding_conv_ml returns for each tb_len block input bits whose trellis output from some start state has minimum Hamming distance to the block over all start states and inputs; it recovers the encoded bits from an error-free stream whenever block outputs determine block inputs, and corrects t errors per block if outputs of different inputs differ in at least 2t+1 places.", "quantifier": "all received patterns, all trellises, all tb_len divisible by n_out", "why_tests_cant": "Optimality over exponentially many paths.", "anchors": ["CommDspy/rx/decoding.py:decoding_conv_ml", "CommDspy/misc/ml_decoding.py:Trellis"]}
{"id": "C26", "title": "Viterbi decoder recovers an error-free stream", "statement": "If every input has a memory cell, transitions into the same state have different outputs and block outputs determine block inputs, decoding_conv_viterbi returns the encoded bits for every error-free received stream, the returned last state is consistent with the path, and the error probability of a block is 0 when all start states that explain the block end in the same state and 1/n when they end in n states; an input without a memory cell gives parallel transitions of which only one is kept, so error-free streams can be decoded wrongly (finding).", "quantifier": "all encoded patterns, all trellises meeting the condition, all tb_len", "why_tests_cant": "All input histories.", "anchors": ["CommDspy/rx/decoding.py:decoding_conv_viterbi"]}
{"id": "C27", "title": "Viterbi decoder is not maximum likelihood", "statement": "decoding_conv_viterbi picks predecessors by the branch metric alone, ignoring the accumulated metric, so there are received blocks with one bit error that decoding_conv_ml decodes correctly and it does not (finding); a pattern shorter than tb_len raises UnboundLocalError (finding).", "quantifier": "existence of a code and received pattern; all too-short patterns", "why_tests_cant": "Tests only check noise-free streams.", "anchors": ["CommDspy/rx/decoding.py:decoding_conv_viterbi"]}
{"id": "C28", "title": "check_binary accepts exactly the arrays it accepts", "statement": "check_binary passes iff the array is empty, constant 0 or 1, or has exactly two distinct values one of which is 0 or 1; in particular every binary array passes, but so does e.g. a {-1,1} array, which coding_manchester then encodes as all ones (finding).", "quantifier": "all integer arrays", "why_tests_cant": "Guard over all arrays.", "anchors": ["CommDspy/misc/help_functions.py:check_binary", "CommDspy/tx/coding.py:coding_manchester"]}
{"id": "C29", "title": "slicer returns the nearest level", "statement": "Every output of slicer is one of the levels, none of the levels is strictly closer to the input, ties go to the level listed first, slicing is idempotent and monotone in the input; 1-D and 2-D shapes are preserved while 3-D input comes back flattened (finding) and plain lists raise AttributeError (finding).", "quantifier": "all inputs, all non-empty level vectors", "why_tests_cant": "All real inputs.", "anchors": ["CommDspy/rx/slicer.py:slicer"]}
{"id": "C30", "title": "quantize is a saturating uniform quantiser", "statement": "For types 'u','s','ss' and frac_bits>=0 the output is a multiple of 2**-frac_bits inside the documented range, within half an LSB of the input when the input is in range and equal to the nearest range end otherwise; quantize with its default type always raises ValueError, and negative frac_bits are ignored contrary to the documentation (findings).", "quantifier": "all signals, all total_bits>=1, all frac_bits, all types", "why_tests_cant": "All real inputs and all word lengths.", "anchors": ["CommDspy/rx/quantiztion.py:quantize"]}
{"id": "C31", "title": "buffer frames cover the signal", "statement": "Row r, column c of buffer(signal,length,overlap,delay) is sample r*(length-overlap)+c of the signal preceded by delay zeros and followed by zeros; the number of rows is ceil((delay+len-max(overlap,0))/(length-overlap)); with overlap=0 the flattened rows are the delayed signal padded with fewer than length zeros.", "quantifier": "all signals, lengths, overlaps < length, delays", "why_tests_cant": "All sizes.", "anchors": ["CommDspy/auxiliary.py:buffer"]}
{"id": "C32", "title": "buffer clip=True", "statement": "clip=True removes only the last row, and removes it iff no entry of that row equals an entry in the same column of the signal's sliding windows; hence an incomplete last row survives when sample values repeat, and with length 1 the last complete frame can be dropped (findings).", "quantifier": "all signals", "why_tests_cant": "Depends on value coincidences.", "anchors": ["CommDspy/auxiliary.py:buffer"]}
{"id": "C33", "title": "upsample and zoh", "statement": "upsample(x,r) has length r*len(x), carries x[i] at i*r and 0 elsewhere; zoh(x,r) carries x[i] on the whole cell i*r..i*r+r-1; both commute with concatenation.", "quantifier": "all signals, all rates >= 1", "why_tests_cant": "All sizes.", "anchors": ["CommDspy/auxiliary.py:upsample", "CommDspy/auxiliary.py:zoh"]}
{"id": "C34", "title": "Binary/integer conversion helpers", "statement": "get_bin_perm(k) lists every k-bit vector exactly once in increasing order; bin2uint and uint2bin are mutually inverse on k-bit values; hamming returns the Hamming distances and the index of the first nearest codeword.", "quantifier": "all k, all values, all blocks and codebooks", "why_tests_cant": "All widths.", "anchors": ["CommDspy/auxiliary.py:get_bin_perm", "CommDspy/auxiliary.py:bin2uint", "CommDspy/auxiliary.py:uint2bin", "CommDspy/auxiliary.py:hamming"]}
{"id": "C35", "title": "lock_pattern_to_signal_binary aligns the pattern", "statement": "The result is always a cyclic rotation of the pattern with the same length, it has the largest NRZ correlation with the start of the signal, and if the signal starts with (a prefix of) some rotation of the pattern then the result starts with exactly that prefix.", "quantifier": "all binary patterns and signals, all offsets", "why_tests_cant": "All patterns, offsets and lengths.", "anchors": ["CommDspy/rx/lock_pattern.py:lock_pattern_to_signal_binary"]}
{"id": "C36", "title": "lock_pattern_to_signal aligns multi-level patterns", "statement": "If the signal is at least one pattern long and starts with a rotation of the pattern, the aligned pattern equals that rotation (also when the signal is a positive multiple of it); for a shorter signal of unequal-energy symbols the lock can be wrong (finding).", "quantifier": "all patterns, all offsets, all positive gains", "why_tests_cant": "All patterns; rests on a Cauchy-Schwarz argument.", "anchors": ["CommDspy/rx/lock_pattern.py:lock_pattern_to_signal"]}
{"id": "C37", "title": "prbs_checker counts the bit errors exactly", "statement": "With init_lock the reported error positions are exactly those where data differs from the all-ones-seed PRBS; without it, for data that is some cyclic phase of the PRBS with at most E errors in the first period and 4E < 2**n, the reported error vector is exactly the injected error vector; correct_bit_count plus number of errors is the length and lost_lock holds iff the number of errors reaches loss_th.", "quantifier": "all PRBS types, all data lengths, phases and error patterns", "why_tests_cant": "All phases and error patterns; needs the autocorrelation theorem.", "anchors": ["CommDspy/rx/checker.py:prbs_checker", "CommDspy/rx/lock_pattern.py:lock_pattern_to_signal_binary"]}
{"id": "C38", "title": "prbs_checker_econ", "statement": "On error-free data from any seed it reports no errors and no loss of lock; if the first n bits are clean the error vector is exactly the injected errors; when it has to move the seed window by s bits it still counts the skipped s bits as correct and returns an error vector shorter by s (finding); an all-zero stream is reported as an error-free PRBS (finding).", "quantifier": "all PRBS types, all data", "why_tests_cant": "All error patterns.", "anchors": ["CommDspy/rx/checker.py:prbs_checker_economy"]}
{"id": "C39", "title": "Filter and FilterTII realise the documented difference equation", "statement": "For every coefficient set and input, both classes output a[0]*y[n] = sum b[i]*x[n-i] - sum a[j]*y[n-j]; hence they agree with each other and with scipy's lfilter recursion from zero state; FilterTII with a single b and a single a coefficient raises IndexError (finding).", "quantifier": "all coefficient vectors with a[0] != 0, all inputs (exact arithmetic)", "why_tests_cant": "All filters and input histories.", "anchors": ["CommDspy/misc/help_classes.py:Filter", "CommDspy/misc/help_classes.py:FilterTII"]}
{"id": "C40", "title": "Filter objects can be fed in chunks", "statement": "Calling Filter or FilterTII (or FfeDfeFilterTII) on successive chunks yields the same concatenated output and final memory as one call on the concatenation, for any way of cutting the signal; a wrongly sized initial memory raises ValueError; integer chunks are truncated toward zero on output (finding).", "quantifier": "all coefficient sets, inputs and chunkings", "why_tests_cant": "All cut positions.", "anchors": ["CommDspy/misc/help_classes.py:Filter.__call__", "CommDspy/misc/help_classes.py:FilterTII.__call__", "CommDspy/misc/help_classes.py:FfeDfeFilterTII"]}
{"id": "C41", "title": "ffe_dfe computes the documented equaliser equation", "statement": "slicer_in[n] = sum ffe[i]*x[n-i] - sum dfe[j]*d[j] with d the most recent decisions taken at the sampling phase; with the FFE only it is the plain convolution; outputs have the length of the input, except that an empty input yields extra samples and an empty DFE tap list raises ValueError (findings).", "quantifier": "all inputs, taps, levels, osr and phase", "why_tests_cant": "All histories of decisions.", "anchors": ["CommDspy/rx/ffe_dfe_model.py:ffe_dfe"]}
{"id": "C42", "title": "ffe_dfe streaming", "statement": "Feeding the returned FFE and DFE memories into the next call gives the same slicer_in stream as one call on the concatenated signal: always for DFE at osr=1, for FFE-only if each chunk is at least as long as the FFE (a shorter chunk makes the next call raise TypeError - finding), and at osr>1 for chunk lengths that are multiples of osr only if phase < osr - osr//2 (otherwise a decision is lost - finding); a memory of the wrong length raises TypeError instead of the intended ValueError (finding).", "quantifier": "all inputs, taps, levels and cut positions", "why_tests_cant": "All cut positions and taps.", "anchors": ["CommDspy/rx/ffe_dfe_model.py:ffe_dfe", "example_simulation/simulation_parts/receiver.py:FfeDfe"]}
{"id": "C43", "title": "FfeDfeFilterTII equals ffe_dfe at osr 1", "statement": "FfeDfeFilterTII(ffe, [1]+dfe, levels) and ffe_dfe(ffe, dfe, levels, osr=1) produce the same slicer input on every signal from zero memory.", "quantifier": "all inputs, taps and levels", "why_tests_cant": "All decision histories.", "anchors": ["CommDspy/misc/help_classes.py:FfeDfeFilterTII", "CommDspy/rx/ffe_dfe_model.py:ffe_dfe"]}
{"id": "C44", "title": "A matched DFE removes post-cursor ISI completely", "statement": "If the received signal is symbols from the level set convolved with [1,h1..hm] plus a disturbance smaller than half the minimum level spacing, ffe_dfe with ffe=[1] and dfe=[h1..hm] from zero memory makes no decision error and its output is symbol plus disturbance at every sample.", "quantifier": "all symbol sequences, channels, level sets and disturbances below the threshold", "why_tests_cant": "Error propagation must be excluded for every history.", "anchors": ["CommDspy/rx/ffe_dfe_model.py:ffe_dfe", "CommDspy/rx/slicer.py:slicer"]}
{"id": "C45", "title": "ddlms_grad is the (scaled) gradient of the squared error", "statement": "The reported MSE is the mean squared error, and each reported FFE/DFE gradient entry is one quarter of the derivative of the mean squared error over the samples where the tap has data, for positive and negative tap indices; no FFE index wraps around; a negative DFE index raises IndexError; a tap without data gets nan; the tuple returned contains exactly the requested parts.", "quantifier": "all signals, levels, references and tap index sets", "why_tests_cant": "All tap sets and signals.", "anchors": ["CommDspy/rx/least_mean_squares.py:ddlms_grad", "CommDspy/rx/least_mean_squares.py:_compute_derivatives", "CommDspy/rx/least_mean_squares.py:_return_function"]}
{"id": "C46", "title": "soft_ddlms_grad error term is proportional to the derivative of the log likelihood", "statement": "The per-sample error used by soft_ddlms_grad equals d/dx[-log f(x)] times sqrt(2*pi*sigma^2)*len(levels), f being the documented Gaussian mixture; it is not the derivative itself unless that factor is 1 (finding).", "quantifier": "all real inputs, levels and sigma>0", "why_tests_cant": "Real-analysis identity.", "anchors": ["CommDspy/rx/least_mean_squares.py:soft_ddlms_grad"]}
{"id": "C47", "title": "mueller_muller_step", "statement": "The step is -1, 0 or 1: 0 iff the weighted post/pre difference is below tol, otherwise its sign; reversing time negates it for equal weights; it is invariant under negating both inputs and, for a signal equal to h0*ref + h1*ref delayed + hm*ref advanced (first and last reference samples of equal size) it is the sign of h1-hm as soon as that difference is resolvable at tol. Lengths that do not match raise ValueError. The docstring speaks of amplitudes but signed values are compared (finding).", "quantifier": "all signals of length >= 2, weights, tolerances", "why_tests_cant": "All signals.", "anchors": ["CommDspy/rx/clock_data_recovery.py:mueller_muller_step"]}
{"id": "C48", "title": "Lagrange fractional delay is exact on polynomials", "statement": "dig_delay_lagrange_coeffs(n, alpha) sums to 1, is the unit impulse at the zero-delay tap for alpha=0, and digital_oversample(..., method='lagrange') on samples of any polynomial of degree at most the order reproduces that polynomial exactly at every fractional instant, for orders 1 to 20. From order 21 on the integer denominators overflow int64 and the taps are wrong; order 0 raises ValueError (findings).", "quantifier": "all orders 1<=n<=20, all alpha, all polynomials of degree <= n, all osr", "why_tests_cant": "All orders, polynomials and phases.", "anchors": ["CommDspy/digital_delay.py:dig_delay_lagrange_coeffs", "CommDspy/digital_delay.py:digital_oversample", "CommDspy/digital_delay.py:_get_indices"]}
{"id": "C49", "title": "Oversampling keeps the original samples and sizes", "statement": "For every method digital_oversample returns (len-order)*osr samples of which every osr-th is the original trimmed sample; too short input raises ValueError; an unknown method raises AttributeError; sinc coefficients at a whole delay are the unit impulse moved by that delay; between the samples the values are the sums of shifted sinc (raised cosine) kernels over the nearest order+1 samples at the times r + j/osr; with method 'rcos', beta=1 and even osr a tap divides by zero so that phase is nan (finding); an unknown method goes unnoticed at osr=1 (finding).", "quantifier": "all signals, orders, osr, methods", "why_tests_cant": "All sizes.", "anchors": ["CommDspy/digital_delay.py:digital_oversample", "CommDspy/digital_delay.py:dig_delay_sinc_coeffs", "CommDspy/digital_delay.py:dig_delay_rcos_coeffs"]}
{"id": "C50", "title": "Nyquist pulses give zero ISI", "statement": "sinc_pulse and rcos_pulse (every roll-off beta>0) are 1 at t=0 and 0 at all other integers, so pulse_shape(...) sampled every osr samples starting at osr*span returns the transmitted symbols exactly (over the reals).", "quantifier": "all symbol sequences, osr, spans and roll-offs > 0", "why_tests_cant": "Real-number identity for all roll-offs including the singular ones.", "anchors": ["CommDspy/channel/pulse_shaping.py:rcos_pulse", "CommDspy/channel/pulse_shaping.py:sinc_pulse", "CommDspy/channel/pulse_shaping.py:pulse_shape"]}
{"id": "C51", "title": "Rectangular pulse shaping is a delayed zero-order hold", "statement": "rect_pulse has exactly osr ones, and pulse_shape(x, osr, span, 'rect') equals zoh(x, osr) delayed by osr*span - osr//2 samples; pulse='imp' always raises ValueError because of the memory length check (finding); rcos/rrc with beta=0 raise ZeroDivisionError (finding).", "quantifier": "all signals, osr>=1, span>=1", "why_tests_cant": "All sizes.", "anchors": ["CommDspy/channel/pulse_shaping.py:rect_pulse", "CommDspy/channel/pulse_shaping.py:pulse_shape", "CommDspy/auxiliary.py:zoh"]}
{"id": "C52", "title": "pulse_shape and awgn_channel can be streamed", "statement": "With rj_sigma=0 / snr=None, feeding the returned memory into the next call yields the same output and memory as one call on the concatenated signal, and both are linear in signal and memory; awgn_channel computes the difference equation of (b, a); a wrongly sized memory raises ValueError; a denominator given as a tuple longer than b is refused unless a memory is given (finding).", "quantifier": "all signals, filters, cut positions", "why_tests_cant": "All cut positions.", "anchors": ["CommDspy/channel/pulse_shaping.py:pulse_shape", "CommDspy/channel/additive_noise_functions.py:awgn_channel"]}
{"id": "C53", "title": "CTLE design: transfer function, DC gain, stability", "statement": "For at least one zero and one pole, non-zero frequencies of any sign and a first numerator coefficient above 1e-14, get_ctle_filter returns the bilinear image of gain * prod(1+s/|z|) / prod(1+s/|p|): at every pair s(1+x) = 2 fs osr (1-x) with x=1/z the two responses agree, and the DC gain is 10**(dc_gain/20). If there are no more zeros than poles, all poles lie strictly inside the unit circle, bounded signals of any length give outputs bounded by one constant times the bound, and a step settles at the DC gain. ctle with memory is the difference equation and can be streamed in chunks; without memory it starts from zero. Findings: with more zeros than poles there is an uncancelled pole at z=-1; a first coefficient of at most 1e-14 is dropped, which gives a wrong DC gain; frequencies documented in Hz act as angular frequencies; an empty zero or pole list raises ValueError; a zero frequency gives a non-finite filter.", "quantifier": "all zero/pole lists, gains, fs*osr>0, all complex frequencies, all signals of any length", "why_tests_cant": "All designs and all complex frequencies; stability and settling are statements about unbounded time.", "anchors": ["CommDspy/rx/ctle_model.py:get_ctle_filter", "CommDspy/rx/ctle_model.py:ctle"]}
{"id": "C54", "title": "Equaliser estimation is optimal and exact", "statement": "Without regularisation, for min(ffe_postcursor, dfe_taps) < 2, equalization_estimation returns taps whose squared error (feed-forward part on the signal window, minus feedback of the previous references, minus the reference) is the smallest over all taps of these lengths, its sum of squares as residual and the error power over the output power as mse; if some taps reproduce the reference exactly the returned ones do. reg_lambda<=0 disables any regularisation, 'ridge' minimises the squared error plus lambda times the squared norm over taps and constant offsets, unknown names raise ValueError. normalize=True divides by the largest feed-forward tap. The PRBS version is optimal for the averaged capture and the shifted reference, and a flat channel with any gain and starting point is equalised without error if dfe_taps <= ffe_postcursor. Findings: with two or more postcursors and feedback taps the last rows contain mirrored samples; normalize=True with dfe_taps=0 raises TypeError; a negative main tap is not normalised to magnitude 1; 'synchronized' inputs must in fact be offset by ffe_postcursor; the mse is not relative to the constellation variance; with more feedback taps than other cursors the PRBS version does not equalise a perfect channel.", "quantifier": "all signals, references, tap counts and alignments", "why_tests_cant": "Optimality is over all tap vectors; the mirrored rows and the shift only show for particular size combinations.", "anchors": ["CommDspy/equalization_estimation.py:equalization_estimation", "CommDspy/equalization_estimation.py:equalization_estimation_prbs"]}
{"id": "C55", "title": "Channel estimation from a PRBS capture", "statement": "channel_estimation_prbs returns the channel h of the requested length for which var(m)*h applied to the aligned reference pattern is closest to the averaged capture m. If m is the output of a channel, it is reproduced; for NRZ, for every PRBS type and every number of taps up to one period, the returned channel is the true one divided by var(m), so it is the true one exactly when var(m)=1. Scaling the capture by k>0 scales the channel by 1/k and the residual by 1/k**2 and leaves the normalised channel unchanged; a flat channel of gain k from any starting point gives 1/(k var) at index channel_precursor. PAM3 raises ValueError; a capture shorter than a period or with a constant average gives no finite result. Findings: the estimate is divided by the variance, so even an ideal channel is not returned; pn_inv_postcoding has no effect and does not correct an inverted capture.", "quantifier": "all PRBS types, captures, channels, flags and tap counts", "why_tests_cant": "All captures and channels; full rank for every window length rests on the correlation of every PRBS.", "anchors": ["CommDspy/channel_estimation.py:channel_estimation_prbs"]}
{"id": "C56", "title": "eye_diagram conserves samples", "statement": "Without interpolation entry (k,c) of the (linear) eye is the number of samples at phase c mod osr_diag lying in the k-th of 'quantization' equal intervals of [-fs_value, fs_value] (last interval closed), so each column sums to the number of samples of its phase in range, the second UI is a copy of the first, and eyes of concatenated whole symbols add up; log scale is log10(count+0.1). The amplitude axis is linear from -fs to fs and each value lies in the interval it labels. With osr_diag = u*osr_in columns j*u count original samples and the other columns their sinc interpolation. Findings: out-of-range samples are dropped, not clipped; the axis values are not the interval centres (first and last are the outer edges); interpolation rotates the phase by osr_in//2 samples; fs_value=0 makes numpy use [-1/2,1/2].", "quantifier": "all signals, osr, quantisation and full scales", "why_tests_cant": "All signals and all parameter combinations.", "anchors": ["CommDspy/eye_diagram.py:eye_diagram"]}
{"id": "C57", "title": "awgn noise power", "statement": "The noise standard deviation requested from the generator satisfies power_estimate/std**2 = 10**(snr/10), where power_estimate is the mean square plus the population variance over N-1, so the nominal SNR is met up to that bias, which is at most a factor N/(N-1); with snr=None awgn_channel is noise free; a single sample becomes nan (finding).", "quantifier": "all signals of length >= 2, all snr", "why_tests_cant": "All signals.", "anchors": ["CommDspy/channel/additive_noise_functions.py:awgn", "CommDspy/channel/additive_noise_functions.py:awgn_channel"]}
{"id": "C58", "title": "Example link Encoder/Decoder", "statement": "Over a perfect channel the example_simulation Decoder hands out exactly the pattern given to the Encoder when at most one binary code is switched on and no code on symbols (for patterns that fill whole symbols and whole code blocks); binary differential plus MLT-3 also works, every other pair of binary codes fails because the decoder undoes them in encoding order (finding). coding_gray or coding_differential alone lose all but trivial patterns because the decoder swaps the two inverses, and the shipped configuration (PAM4, gray flag, recursive code) misdecodes its first chunk but works without the gray flag (finding). A non-integral number of bits per symbol above one raises ValueError.", "quantifier": "all coding settings and patterns", "why_tests_cant": "All flag combinations times all patterns.", "anchors": ["example_simulation/simulation_parts/transmitter.py:Encoder", "example_simulation/simulation_parts/receiver.py:Decoder"]}
{"id": "C59", "title": "Example receiver control loop", "statement": "In every history the sampling phase stays in [0, osr) and moves by -1, 0 or +1 (mod osr) per chunk, by the sign of the Mueller-Muller result; after one step of zero the clock loop is switched off and the phase never changes again. Every converging call adds 100*learning rate*(power of the levels - power of the slicer input) to the digital gain, so it grows exactly when the slicer input is weaker than the levels. The ADC samples compared with the decisions are delayed by the FFE precursors, across chunk borders. Given a gradient function, every tap moves by minus the learning rate times its derivative, where the gradient is evaluated on the slicer input multiplied by the gain a second time. Findings: once LMS convergence is started it is never switched off because the stop test compares the new MSE with itself, so converge_done is never set and perform_convergence does not terminate; and the first adapting call raises AttributeError because CommDspy.rx has no lms_grad.", "quantifier": "all histories of chunk results", "why_tests_cant": "Non-termination over unbounded histories.", "anchors": ["example_simulation/simulation_parts/receiver.py:Receiver.digital_stage", "example_simulation/simulation_parts/simulation.py:Simulation.perform_convergence"]}
{"id": "C60", "title": "Example BER checker accumulates", "statement": "After any sequence of check_ber calls the accumulated symbol counter is the total number of bits, the accumulated error counter is the sum of the reported rates times the chunk lengths, errors never exceed symbols, and each returned rate is in [0,1]; an empty chunk raises ValueError and counts nothing. A chunk's errors are its differences to the PRBS phase that fits its first period best: clean chunks count zero, chunks of at least a period with less than a quarter of errors in the first period are counted exactly, chunks of at most a period never over-counted; a chunk of at most n bits is reported error-free whatever it contains (finding).", "quantifier": "all histories of chunks", "why_tests_cant": "Unbounded histories.", "anchors": ["example_simulation/analyzer/analyzer_classes.py:Checker"]}
{"id": "C61", "title": "Power spectrum analyser psa", "statement": "psa refuses unsupported modes with ValueError; any obw forces dBc; every supported mode is mode dB times its calibration factor; the FFT size is the least power of two at least window*osr and the window floor(1.9*ceil(fs/rbw)); it works exactly if the window is not longer than the signal. Amplifying the signal by c multiplies the spectrum by c^2 (dBc: unchanged), an added constant is not seen, the total power is the mean windowed energy of the segments (Parseval), readings are non-negative, and a tone of amplitude A on a bin frequency reads A^2/2 in mode dB with the default window. Single side band halves the reading of real signals except in mode dB. Findings: the documented mode 'dBc/Hz ' raises ValueError; with the default rbw every signal shorter than 1900 samples raises ValueError; mode dBm reads a tone 2*rbw/fs times its power.", "quantifier": "all signals, modes, bandwidths, windows, amplitudes and phases", "why_tests_cant": "All parameter combinations times all signals; calibration is an identity over real amplitudes and phases.", "anchors": ["CommDspy/psa.py:psa"]}
{"id": "C62", "title": "Removable singularities of the shaped pulses", "statement": "The special values of rcos_pulse at |2*beta*t|=1 make the raised cosine a continuous function of time, and the special values of rrc_pulse at t=0 and |t|=1/(4*beta) are the limits of its formula there.", "quantifier": "all roll-offs beta>0, all times", "why_tests_cant": "Limits are statements about all neighbourhoods; a typo in a special value only shows for roll-offs that hit the singularity.", "anchors": ["CommDspy/channel/pulse_shaping.py:rcos_pulse", "CommDspy/channel/pulse_shaping.py:rrc_pulse"]}
{"id": "C63", "title": "least_squares and its regularisations", "statement": "Without regularisation least_squares returns the least squares solution of smallest norm (unique) with its residual, which is empty unless the columns are independent and fewer than the rows. 'ridge' minimises ||b - Ax - c||^2 + lambda ||x||^2 over x and a constant c; ridge_regression_manual is the unique minimiser of ||b - Ax||^2 + lambda ||x||^2. ols_manual returns the same vector with its sum of squared residuals. Unknown names and mismatched sizes raise ValueError. Findings: ols_manual returns a residual also where the numpy function returns an empty one; 'ridge' and 'lasso' do not minimise the documented objectives because of sklearn's intercept and scaling, and the manual ridge is not the same as the sklearn one.", "quantifier": "all matrices, right hand sides and lambda > 0", "why_tests_cant": "Optimality and uniqueness are statements over all vectors.", "anchors": ["CommDspy/misc/least_squares.py:least_squares", "CommDspy/misc/least_squares.py:ridge_regression", "CommDspy/misc/least_squares.py:ridge_regression_manual", "CommDspy/misc/least_squares.py:lasso_regression", "CommDspy/misc/least_squares.py:ols_manual"]}
{"id": "C64", "title": "Example pattern source continues", "statement": "k successive chunks of the example PrbsGen concatenate to one prbs_generator run of k times the chunk size, the stored seed is the one to continue with, the default seed is all ones, and every history of generated chunks is counted error-free by the example Checker.", "quantifier": "all PRBS types, seeds, chunk sizes and numbers of calls", "why_tests_cant": "Unbounded histories; a seed bookkeeping error only shows across chunk borders.", "anchors": ["example_simulation/simulation_parts/transmitter.py:PrbsGen", "example_simulation/simulation_parts/data_objects.py:PrbsData", "example_simulation/analyzer/analyzer_classes.py:Checker"]}
{"id": "C65", "title": "Example equaliser object", "statement": "FfeDfeData accepts its settings exactly when every given vector has the announced size and levels come with a DFE (ValueError otherwise), with defaults unit tap / zeros; FfeDfe calls obey the FFE-DFE equation with the stored vectors and memories; cutting a signal into any chunks (not shorter than the filters) gives the output and final state of one call; an equaliser with default taps only delays by its precursors; set_ffe/set_dfe accept exactly the right length and keep the memories. Finding: without a DFE a chunk shorter than the FFE makes the next call raise TypeError.", "quantifier": "all settings, all signals, all ways of cutting them into chunks", "why_tests_cant": "Unbounded signals and all chunkings; an error in the memory only shows across chunk borders.", "anchors": ["example_simulation/simulation_parts/receiver.py:FfeDfe", "example_simulation/simulation_parts/data_objects.py:FfeDfeData"]}
{"id": "C66", "title": "Example ADC", "statement": "The ADC returns, for the samples phase, phase+osr/rate, ..., the nearest value of its fixed point format; inside the range the error is at most half a step; when the phase is below the sampling distance and chunks are multiples of it, converting chunk by chunk equals converting the whole signal. Finding: with two samples per symbol and the default phase osr//2 the first sample of every chunk is lost.", "quantifier": "all formats, phases, oversampling factors and signals", "why_tests_cant": "All formats times all signals; the lost sample only shows in the rate over many chunks.", "anchors": ["example_simulation/simulation_parts/receiver.py:Adc", "example_simulation/simulation_parts/data_objects.py:AdcData"]}
{"id": "C67", "title": "Levels of the example link", "statement": "With the standard levels of a constellation the transmitter sends levels reaching +-amp/2 and the receiver slices to levels reaching +-rx_factor; the receiver's demapper maps every sliced level to its own symbol exactly when rx_factor is in the range of the constellation (NRZ (0,2), OOK (1/2,3/2), PAM3 [1/2,3/2], PAM4 (2,4)). If no levels are given the standard ones are sent whatever the amplitude and the receiver's levels reach +-(top level) 2 rx_factor/amp. Findings: with PAM4 and the shipped RX_FACTOR 0.75 the outer symbols are merged with the inner ones; so they are without levels for every amplitude above three times rx_factor.", "quantifier": "all amplitudes, all positive receiver scalings, all constellations", "why_tests_cant": "The set of working scalings is a real interval.", "anchors": ["example_simulation/simulation_parts/data_objects.py:MappingData", "example_simulation/simulation_parts/receiver.py:Receiver", "CommDspy/rx/demapping.py:demapping"]}
{"id": "C68", "title": "Data path of the example link", "statement": "If in every chunk each converted and amplified sample at the sampling instant is closer than half the level spacing to the transmitted level (at receiver scale), the receiver outside convergence hands out exactly what encoder and decoder alone give; with coding settings that deliver (Example link Encoder/Decoder) every history of patterns comes out unchanged, whatever the analog signal does between the sampling instants.", "quantifier": "all histories of patterns, all analog signals meeting the eye condition, all constellations and amplitudes", "why_tests_cant": "Unbounded histories and a continuum of signals.", "anchors": ["example_simulation/simulation_parts/transmitter.py:Transmitter", "example_simulation/simulation_parts/receiver.py:Receiver.digital_stage", "example_simulation/simulation_parts/receiver.py:Decoder"]}
{"id": "C69", "title": "Example channel object", "statement": "A Channel built with FIR coefficients (or none) starts with zero memories of the right sizes; a call returns the shaped pulse ('pulse'), or the pulse through the difference equation of the coefficients ('isi_awgn'); without noise any cutting of the signal into chunks gives the output of one call; with an snr each chunk gets noise scaled to its own power and the memories never contain noise; an unknown type returns None. Findings: IIR coefficients are lost: with FIR coefficients starting with a non-zero value an 'isi_awgn' channel given any IIR coefficients returns the bare pulse in every history, with a leading zero every call raises ValueError, without FIR coefficients every call raises TypeError.", "quantifier": "all pulses, coefficients, signals, ways of cutting them into chunks and noise draws", "why_tests_cant": "Unbounded signals and all chunkings; an error in a memory only shows across chunk borders.", "anchors": ["example_simulation/simulation_parts/channel.py:Channel", "example_simulation/simulation_parts/data_objects.py:ChannelData"]}
{"id": "C70", "title": "Example CTLE object", "statement": "The default memory of Ctle fits its filter and a memory of any other size is refused with ValueError; any cutting of the signal into chunks gives the output and final state of one call; with zeros at the pole frequencies (in any order) every history is only multiplied by the linear gain.", "quantifier": "all designs, signals and ways of cutting them into chunks", "why_tests_cant": "Unbounded signals and all chunkings over a continuum of designs.", "anchors": ["example_simulation/simulation_parts/receiver.py:Ctle", "example_simulation/simulation_parts/data_objects.py:CtleData"]}
{"id": "C71", "title": "Whole example link", "statement": "A link built from PRBS source, transmitter without codes, pulse shaping channel (with or without noise), CTLE with zeros at its pole frequencies, ADC sampling once per symbol at a phase without inter-symbol interference, equaliser in its initial state and receiver, delivers the PRBS stream: for any number of chunks the concatenated received bits are the concatenated sent bits delayed by (pulse delay + precursor taps) symbols, provided the noise leaves the eye open at the ADC. The checker counts no error in any chunk beyond the start-up bits. For the rectangular pulse and noise draws of at most B standard deviations the noise is at most sqrt(2 A^2/10^(snr/10)) B. Finding: the default ADC phase osr//2 samples sinc and raised cosine pulses half a symbol off their centre, where an alternating pattern reads exactly zero.", "quantifier": "all PRBS types and seeds, constellations, amplitudes, formats, pulses, spans, oversampling factors, equaliser lengths, numbers of chunks and noise draws within the stated bounds", "why_tests_cant": "Unbounded histories, a continuum of settings and of noise; each stage passes its tests while the latency and the eye condition only exist in the composition.", "anchors": ["example_simulation/simulation_parts/full_link.py:FullLink", "example_simulation/simulation_parts/transmitter.py:Transmitter", "example_simulation/simulation_parts/channel.py:Channel", "example_simulation/simulation_parts/receiver.py:Receiver", "example_simulation/analyzer/analyzer_classes.py:Checker"]}
{"id": "C72", "title": "Manual lasso: path and accuracy of the gradient iteration", "statement": "lasso_regression_manual follows, from its random start, the documented step w - mu (A^T(Aw - b)/n + lambda sign(w rounded to 4 decimals)) and stops at the first step moving no weight by tol or more, or after max_steps - 1 steps; a run stopped by the tolerance ends within tol of a point whose objective ||b - Aw||^2/(2n) + lambda ||w||_1 exceeds that of any vector v by at most tol/mu times their distance plus lambda n 5e-5; without regularisation and with a step of at most 2n/||A||_F^2 the residual never grows, and with a smaller one the tolerance is reached within a stated number of steps. Fewer than 2 steps, matrices without columns and right hand sides of a wrong size are refused. Findings: a tolerance met in the last allowed step is reported as not reached; with the default step the residual can grow; zero weights are left also where zero is the minimiser; a run at rest minimises neither the documented objective nor that of sklearn's Lasso.", "quantifier": "all matrices, right hand sides, starts, regularisations, steps, tolerances and step counts", "why_tests_cant": "A continuum of inputs and starts; convergence is a statement about unbounded iteration counts.", "anchors": ["CommDspy/misc/least_squares.py:lasso_regression_manual"]}
{"id": "C73", "title": "Pulse shaping with random jitter", "statement": "With rj_sigma not close to zero every sample of symbol j becomes the value of the cubic spline through the unjittered samples (the unique one without knots at the second and second to last sample, continued beyond the ends) at its own time plus rj_sigma times the draw for symbol j; the memory is that without jitter. Draws of zero, or |rj_sigma| <= 1e-8, give the unjittered signal; displacements by whole samples inside the signal read that sample; polynomials of degree three are followed exactly; displacements staying inside the signal change a sample by at most 12*osr*|displacement|*peak and never lead beyond 3.5 times the peak. Findings: one to three samples are refused although they are shaped without jitter; at the ends of a chunk half a symbol of jitter multiplies the peak by more than 5; chunks do not add up to the whole signal even with the same draws and memories.", "quantifier": "all signals, pulses, memories, oversampling factors, standard deviations and draws", "why_tests_cant": "The result is random and a continuum; what happens at chunk borders depends on rare draws there.", "anchors": ["CommDspy/channel/pulse_shaping.py:pulse_shape"]}
{"id": "C74", "title": "Decisions in double precision", "statement": "With samples and levels being finite doubles (at most 2^1022) and every operation rounded, slicer returns a level such that no other is nearer by more than a relative 2^-52; a level nearest by more than that is returned; a sample equal to a level is returned; samples below the lowest level give the lowest, samples above the highest give the highest as long as the excess is below 2^52 level distances, and in that range a larger sample never gives a lower level. quantize (up to 53 bits, 63 fractional) returns values of the format with an error of at most half an LSB (1+2^-52) in range and the ends of the range outside. demapping gives the symbol of level k for samples within (1-2^-50) times half the level distance of it. Findings: samples within rounding of a threshold are decided for the farther level, and slicer and demapper decide oppositely; far above the constellation, and for +inf, the LOWEST level is returned; quantize of +inf is the most negative value. The slicer raises exactly if there are no levels.", "quantifier": "all doubles, all level vectors, all fixed point formats up to 53 bits, all constellations", "why_tests_cant": "There are 2^64 doubles per sample and the failing ones are isolated points next to the thresholds or extreme magnitudes.", "anchors": ["CommDspy/rx/slicer.py:slicer", "CommDspy/rx/quantiztion.py:quantize", "CommDspy/rx/demapping.py:demapping"]}
{"id": "C75", "title": "Codes over the latency of the example link", "statement": "With any settings of Whole example link and any codes that turn chunks of bits into chunks of symbols, the decoder sees the encoder's symbol stream delayed by D + precursor taps symbols, cut into chunks at other places. A latency of whole chunks delivers every stream that the codes deliver chunk by chunk. Without code, with Manchester, differential Manchester and linear block codes a latency of whole code blocks is a fixed latency of bits; with the bipolar code every latency is. With the differential and the MLT-3 code all bits arrive except where a chunk of the encoder or of the decoder begins, and the value there is stated exactly. Findings: over other latencies than whole chunks every chunk with an odd number of ones inverts the first bit of the next one (differential, MLT-3), MLT-3 also hands out the value 2; over an odd number of line bits every value decoded from Manchester differs from both bits it overlaps.", "quantifier": "all link settings of C71, all code settings of the stated kinds, all numbers of chunks and noise draws within the bounds", "why_tests_cant": "Encoder and decoder pass loop-back tests chunk by chunk; the errors only appear when a latency moves the chunk borders, and then only for chunks of certain parities.", "anchors": ["example_simulation/simulation_parts/full_link.py:FullLink", "example_simulation/simulation_parts/transmitter.py:Encoder", "example_simulation/simulation_parts/receiver.py:Decoder", "example_simulation/simulation_parts/receiver.py:Receiver"]}
{"id": "C76", "title": "Decision feedback equaliser in double precision", "statement": "ffe_dfe with a DFE on doubles, whatever order (and fusing of multiplications) its dot products use: every slicer input is finite and differs from the equaliser equation for the decisions really taken by at most (taps+1) 2^-52 times the sum of the magnitudes of the terms (plus taps 2^-1072), and every decision is a nearest level up to a relative 2^-52. If exact arithmetic decides by a larger margin at every sample, the doubles take the same decisions over signals of any length: errors do not accumulate. A DFE matched to the post-cursors recovers every symbol when twice the disturbance plus rounding stays below the level distances. Where equal dot products have equal results, two calls with the memories handed over give bit for bit the result of one call. Finding: near a threshold the decision depends on the order of the additions inside dot.", "quantifier": "all signals, taps, memories, levels, oversampling factors, phases and all orders of summation, changing from call to call", "why_tests_cant": "The order of summation depends on library, length and alignment; a decision that differs once is fed back, so only an argument over the whole history settles that it never differs.", "anchors": ["CommDspy/rx/ffe_dfe_model.py:ffe_dfe", "CommDspy/rx/slicer.py:slicer"]}
{"id": "C77", "title": "Channel object and example link with random jitter", "statement": "Channel with pulse_rj_sigma not close to zero returns, chunk by chunk, the chunk without jitter read at displaced times (see Pulse shaping with random jitter), plus its noise; over any history of chunks its pulse memory is that of the same history without jitter, and with inter-symbol interference the filter runs over the jittered chunks as over one signal. Without inter-symbol interference the draws for one chunk affect that chunk only. Chunks of one to three samples are refused and leave the object unchanged; |sigma| <= 1e-8 is no jitter. Displacements of at most J symbols and one sample change no sample by more than 26 osr J times the peak, at chunk ends too. Every link of Whole example link delivers the PRBS stream with its fixed latency and without counted errors for any number of chunks as long as jitter and noise together stay within the eye opening; with the rectangular pulse, levels up to A and noise draws up to B that disturbance is at most e + sqrt(2 (A+e)^2/10^(snr/10)) B with e = 26 osr J A. Finding: with inter-symbol interference the jitter of one chunk changes the next one.", "quantifier": "all channels, histories, standard deviations, jitter and noise draws; all link settings of C71 and numbers of chunks", "why_tests_cant": "The jitter is random, its effect at chunk ends is amplified by extrapolation, and only an argument over all histories shows that it never disturbs the memory or the latency.", "anchors": ["example_simulation/simulation_parts/channel.py:Channel", "CommDspy/channel/pulse_shaping.py:pulse_shape", "example_simulation/simulation_parts/full_link.py:FullLink"]}
{"id": "C78", "title": "Peak distortion criterion for the example link", "statement": "Full example link with any pulse, sampling phase, FIR channel, CTLE, FFE and DFE taps (uncoded bits): without noise the ADC samples the superposition of the responses h to the single symbols, in any chunking, and h is unique. If the ADC does not saturate for any data (amplitude times the absolute sum of h plus the noise) and rx_factor times the absolute sum of the difference between the equalised response and 'one at the main tap, then the DFE taps', plus the noise and half an ADC code through the FFE, stays below half the level spacing, then: once as many symbols in a row as there are DFE taps have been received rightly every later bit is right; and without DFE, or with the main tap first, or with room for every DFE decision being wrong, every PRBS bit arrives after exactly main-tap symbols and the checker counts no error, for any number of chunks. Channel types without noise source add none; otherwise the CTLE passes on at most the absolute sum of its response times the channel's noise. Finding: with a DFE and a later main tap the criterion alone does not start the DFE rightly: with no noise and no interference left it receives the first six ones as zeros.", "quantifier": "all link settings of the stated kind, all taps, all responses, all numbers of chunks and noise draws within the bound", "why_tests_cant": "The worst data pattern is as long as the response and the DFE feeds back its own decisions, so only an argument over all histories of bits settles that no pattern ever causes an error.", "anchors": ["example_simulation/simulation_parts/full_link.py:FullLink", "example_simulation/simulation_parts/channel.py:Channel", "example_simulation/simulation_parts/receiver.py:Ctle", "example_simulation/simulation_parts/receiver.py:Receiver", "CommDspy/rx/ffe_dfe_model.py:ffe_dfe"]}
{"id": "C79", "title": "Receivers that share the arrays of their settings", "statement": "Equaliser settings keep the caller's tap arrays, every receiver built from them keeps the same objects, and the tap update writes into them. A script may build any number of receivers from any settings and call, start and retune them in any order. As long as no update runs (the package as it is, or nobody converging) no array ever changes, every receiver returns bit for bit what it returns by itself and ends in the same state, a receiver built later starts as its settings say, and the script raises only if some receiver would by itself. With any gradient function the same holds of every receiver whose taps are lists, or float arrays that nobody else holds. Receivers on the same float arrays have the same taps after every script, and so has a receiver built from these settings afterwards. Findings: converging one receiver changes the bits another one returns, the settings and the caller's array; integer tap arrays make every converging call raise TypeError.", "quantifier": "all scripts, all numbers of receivers and settings, all sharing patterns, all gradient functions, all analog inputs", "why_tests_cant": "Interference depends on the interleaving of calls on several objects and on who holds which array; a test with one link per settings object never sees it.", "anchors": ["example_simulation/simulation_parts/data_objects.py:FfeDfeData", "example_simulation/simulation_parts/receiver.py:FfeDfe", "example_simulation/simulation_parts/receiver.py:Receiver.digital_stage"]}
{"id": "C80", "title": "Calls of the example link that raise, and the records of a simulation", "statement": "A user calls the link, starts and stops its convergence and gives it new taps in any order, catching exceptions. Whatever the calls raise, the k-th call sends the k-th chunk of the pattern, and channel and CTLE filter one continuous signal. Outside convergence a call that raises behind the equaliser disturbs no other call. The sampling phase stays in range and equal to that of the ADC, the settings of the receiver never change, and a call that does not return leaves the bits received last. Every stage holds after a call what it held before or its whole output for this call, never a part of it; between calls nothing but the receiver changes, and switching off what is off or giving taps of the wrong number changes nothing. With the package as it is, no converging call returns, and bits, taps, loss and flags stay as they are for ever; a call that would otherwise return raises AttributeError after moving the gain by 100 times the learning rate times the power difference. The records of Simulation are exactly the states of the link after every completed turn of the loop, in order, so that the recorded pattern is the sent one without its first chunk. Findings: perform_convergence never returns; with the package as it is it raises in the first turn, with AttributeError if the link carries two chunks, records nothing and leaves the receiver converging; a failed attempt to converge changes the bits received after switching the convergence off again.", "quantifier": "all histories of calls and settings, all links, channel outputs, noise draws and gradient functions", "why_tests_cant": "The objects after an exception depend on the line that raised and on the whole history; a test looks at single calls that return.", "anchors": ["example_simulation/simulation_parts/full_link.py:FullLink.__call__", "example_simulation/simulation_parts/receiver.py:Receiver.digital_stage", "example_simulation/simulation_parts/receiver.py:Receiver.extract_data", "example_simulation/simulation_parts/transmitter.py:Transmitter.generate", "example_simulation/simulation_parts/simulation.py:Simulation", "example_simulation/analyzer/analyzer_classes.py:Memory"]}
{"id": "C81", "title": "Viterbi decoder on arbitrary received bits", "statement": "For every binary convolutional code that passes the validity check and every received bit sequence, codeword or not, decoding_conv_viterbi returns exactly if n_out <= tb_len <= number of received bits; tb_len 0 raises ZeroDivisionError, a tb_len larger than the input UnboundLocalError, a tb_len below n_out IndexError. It then hands out n_in*(tb_len/n_out) values per block, a last state of the trellis and one error probability between 0 and 1/2 per block; the values are bits for every code with at most one memory cell per input and for every code in which each state can be entered from every state or from some state with an output that is not all ones. Finding: for other codes the decoder hands out -1 even for an error-free stream.", "quantifier": "all codes (any rate, memory, feedback), all received bit sequences, all traceback lengths", "why_tests_cant": "Tests decode codewords with few errors; there are 2^n received sequences and the failing codes have a special trellis.", "anchors": ["CommDspy/rx/decoding.py:decoding_conv_viterbi"]}
{"id": "C82", "title": "Links with consistent settings never raise", "statement": "Call a link consistent if its codes carry its chunks and decode every chunk of symbols, its levels can be demapped, its channel, CTLE, ADC and equaliser have fitting memories and usable designs. Over any history of calls, new taps and switching off the convergence, whatever the noise and the channel do, every call of a consistent link returns, leaves chunks of the sizes of the settings, hands the decoder only symbols of the receiver's levels, and the link stays consistent. Settings with a seed of the right length, a usable pulse, any non-empty FIR channel, a CTLE design, one sample per symbol, any FFE and DFE, and block, differential or convolutional codes with or without gray and differential symbols give consistent links; the shipped configuration does, for every channel file. Findings: convergence of a consistent link always raises AttributeError with nothing recorded, in particular the shipped simulation for every channel; with the shipped receiver factor the decoder only ever gets the symbols 1 and 2, so that already the first chunk cannot arrive.", "quantifier": "all consistent links, all histories, noise draws, FIR channels and gradient functions", "why_tests_cant": "Whether a later call raises depends on the whole history through filter memories, decisions and decoders on arbitrary garbage; tests run a few chunks of one configuration.", "anchors": ["example_simulation/simulation_parts/full_link.py:FullLink", "example_simulation/simulation_parts/receiver.py:Receiver", "example_simulation/simulation_parts/simulation.py:Simulation", "example_simulation/constants.py", "example_simulation/config_file.py"]}
{"id": "C83", "title": "Viterbi decoder with channel errors", "statement": "For every code whose inputs all have memory and in which each state can be entered safely (see Viterbi decoder on arbitrary received bits), whatever is received: decoding_conv_viterbi decodes each block to the inputs of the path that is followed backwards from the end state with the fewest differing outputs by taking, into each state, the transition closest to that one chunk (ties to the lower state number); the error probability is 1/k for k equally good end states. Errors are corrected, with the right state and error probability 0, if each chunk has fewer than d/2 of them (d: number of outputs in which transitions into the same state differ), the last L chunks of each block are intact and paths that stay apart for L chunks differ in more outputs than the block has errors. A block is decoded wrongly as soon as one chunk is closer to another transition into the same state, or as close from a lower state, whatever the other chunks are. So single errors that maximum likelihood decoding corrects are not: with the (7,5) code whenever the bit sent two before is 1, with the code of the shipped example whenever the encoder state is 1.", "quantifier": "all such codes, all data, all received bit sequences, all block lengths", "why_tests_cant": "Which error patterns are corrected depends on all states of the trellis and on blocks of any length; a test with random errors shows an error rate but not that a pattern can never be corrected.", "anchors": ["CommDspy/rx/decoding.py:decoding_conv_viterbi", "example_simulation/config_file.py"]}
{"id": "C84", "title": "How far wrong line symbols and wrong decisions reach", "statement": "Errors on the line do not spread without bound in the decoders: Gray decoding and symbol2bin (two or four levels, any bit order flags) turn confusions of neighbouring symbols into exactly one wrong bit each; differential decoding is wrong exactly where the rotation of the received symbols changes, so k errors cost at most 2k symbols and one inner error exactly two; Manchester decodes a cell with one wrong half to 1/2 and one with two to the other bit, differential Manchester is wrong exactly with one wrong half; a bipolar bit is wrong exactly if its own symbol changed between mark and space; MLT-3 costs at most two values per error; a linear code of distance 2t+1 at most k/(t+1) message bits per wrong line bit. In ffe_dfe with feedback, two runs whose inputs agree from some sample on and whose decisions have agreed on as many symbols as there are feedback taps agree for ever; a matched feedback filter whose taps times the level span, plus noise, stay below half the level spacing decides rightly from the first symbol on although its decision history is wrong. Finding: without that margin one wrong sample can invert every later decision of a transmission of any length.", "quantifier": "all data, all error patterns, all lengths, all taps, memories and levels", "why_tests_cant": "Spreading depends on the position of every error and, with feedback, on all later decisions; tests inject a few errors into short sequences.", "anchors": ["CommDspy/rx/decoding.py", "CommDspy/rx/symbol2bin.py:symbol2bin", "CommDspy/rx/ffe_dfe_model.py:ffe_dfe"]}
{"id": "C85", "title": "The documented error checker", "statement": "The tx_example and Genie error checker scripts, in double precision: the full-scale levels are the levels over their root mean square to within 2^-52; the transmitter sends, for every PRBS, non-zero seed, number of symbols, bit arrangement, scale and coding, the levels of the symbols of the PRBS from the seed; if the samples at the slicer, from any symbol on, are within half the level distance of the sent levels (with a margin of 2^-50 for rounding) the receiver returns the sent bits and the checker reports no error and all bits correct, however late the reception starts; for arbitrary samples, with at least one period received and fewer than a quarter of the bits of its first period wrong, the error vector marks exactly the received bits that differ from the sent ones; with Gray coding and only neighbouring wrong decisions the number of bit errors is the number of wrong symbols. Finding: the script in README.md leaves out full_scale in the demapping; PAM4 symbols 0, 1, 2, 3 become 1, 1, 2, 2 and a link without any wrong decision is reported to have at least 2^(n-1)-1 errors in two periods, one bit in four. The script in example_runs.py sends NRZ with one bit per symbol and checks PAM4 with two: with all samples nearly as sent the checker reports at least 2^(n-1) errors in two periods.", "quantifier": "all PRBS types, non-zero seeds, lengths, offsets, two and four level constellations, flags and all double samples", "why_tests_cant": "The script has to be right for every seed and starting point of the reception and for every sample near a decision threshold after rounding; a run of the script shows one transmission.", "anchors": ["README.md:tx_example", "README.md:Genie error checker", "test/example_scripts/example_runs.py", "CommDspy/rx/checker.py:prbs_checker", "CommDspy/rx/demapping.py:demapping", "CommDspy/rx/slicer.py:slicer", "CommDspy/tx/mapping.py:mapping"]}
{"id": "C86", "title": "prbs_full_scale only rescales the estimates", "statement": "channel_estimation_prbs and equalization_estimation_prbs over the real numbers, with the irrational levels of prbs_full_scale=True; with False and rational captures this is the model of the other estimation properties. Full-scale levels are the levels divided by their RMS (1 for NRZ only). For every capture and all parameters, prbs_full_scale=True raises the same exceptions at the same inputs as False; the channel estimate is multiplied by the RMS, the normalised channel estimate and the residual are unchanged. For the equaliser without active regularisation the residual is divided by the squared RMS and the mse ratio is unchanged; without feedback taps, or whenever numpy reports a residual (independent columns), the feed forward taps are divided by the RMS and the feedback taps are unchanged (normalised: the feed forward taps are unchanged, the feedback taps multiplied and the gain divided by the RMS). The same holds for ridge regression without feedback taps, and for equalization_estimation with a reference multiplied by any positive number. Findings: with overlapping feed forward and feedback taps the estimated taps depend on the scale of the reference by more than a factor, and so do the feedback taps of ridge regression.", "quantifier": "all real captures, PRBS types, constellations, tap counts, regularisation weights and flags", "why_tests_cant": "The scale enters through a pseudo-inverse of a matrix built from the capture; a test compares the two settings on one capture with a tolerance.", "anchors": ["CommDspy/channel_estimation.py:channel_estimation_prbs", "CommDspy/equalization_estimation.py:equalization_estimation_prbs", "CommDspy/equalization_estimation.py:equalization_estimation", "CommDspy/auxiliary.py:get_levels"]}
{"id": "C87", "title": "Receivers that search the sampling phase", "statement": "rx_example and rx_example2 of test/example_scripts/example_runs.py (and the search in README.md), behind the CTLE and the ADC and over the real numbers. For every stream with at least one period of the PRBS, every number of samples per symbol, equaliser shorter than a period with at most one tap where feed forward and feedback overlap, and two or four levels: the search raises nothing and returns the first phase whose best taps have the least normalised squared error against the PRBS, aligned by correlation with the samples at that phase, together with such taps. rx_example, which filters the oversampled stream with upsampled taps, returns exactly the symbol-rate filtering of the samples at that phase from symbol number of taps on. If the stream repeats with the PRBS and some phase can be equalised without error, the phase found has error zero; rx_example then returns the PRBS symbols wherever the fitted stretch recurs, and rx_example2 returns them, and keeps deciding right to the end of the stretch, from any point where the decisions it feeds back are right. Finding: when no phase can be used (a stream of zeros) the search keeps phase -1, a valid index, and rx_example returns zeros without an exception.", "quantifier": "all real streams, numbers of samples per symbol, PRBS types, two and four level constellations, scales and tap counts", "why_tests_cant": "The choice compares least squares fits over all phases of an arbitrary stream and the claim is about every sample after it; a run of the script draws an eye for one simulated channel.", "anchors": ["test/example_scripts/example_runs.py:rx_example", "test/example_scripts/example_runs.py:rx_example2", "README.md", "CommDspy/equalization_estimation.py:equalization_estimation_prbs", "CommDspy/rx/ffe_dfe_model.py:ffe_dfe", "CommDspy/auxiliary.py:buffer", "CommDspy/auxiliary.py:upsample"]}
{"id": "C88", "title": "Demapping any sample", "statement": "demapping with and without full_scale (rational and real samples), for every array of samples: continue the levels of the constellation in both directions with the same distance. Every sample belongs to exactly one of them, a nearest one; half way between two it is the one with the even number (the lowest level has number 0). Samples, negated with pn_inv, that belong to levels of the constellation give their numbers. Samples belonging to numbers -n to -1 (n levels) give the number plus n, and if any sample of the array belongs to another number the call raises IndexError; one sample above the highest level by more than half a distance is enough. Finding: a sample below the lowest level by more than half and less than one and a half distances is demapped, silently, to the highest symbol, the level farthest from it.", "quantifier": "all constellations, rational and (full scale) real samples, shapes and pn_inv", "why_tests_cant": "The result at ties and outside the levels depends on rounding to even and on numpy's negative indices; tests demap samples near the levels.", "anchors": ["CommDspy/rx/demapping.py:demapping", "CommDspy/auxiliary.py:get_levels"]}
{"id": "C89", "title": "Timing recovery on a PRBS", "statement": "Generator, bin2symbol and mapping send, for every PRBS type, seed, two or four level constellation and bit arrangement, a line that repeats one period for ever. Behind any channel shorter than a period (in bits), at any starting point: mueller_muller_step on any number of whole periods plus one symbol, with equal weights, gives exactly the direction of first postcursor minus first precursor times weight, gain, variance of the levels and 2^n/(2^n-1), whatever the other taps are; for any other length it gives that direction as soon as the two taps outweigh an explicit bound of what the symbols in excess can add. lock_pattern_to_signal on at least one period puts the pattern where the largest tap puts it. So the phase loop of test/test_cdr.py, for every number of samples per symbol and a channel of its own at each phase, goes from the middle phase to the balanced phase and stops there when all phases between ask for it, and, when the balance lies between two phases neither of which is within the tolerance, never stops before its last pass and ends at one of the two. Finding: a chunk of exactly one period can drive the phase the wrong way, for instance with a postcursor one percent above the precursor.", "quantifier": "all PRBS types, non-zero seeds, two and four level constellations, flags, channels shorter than a period, starting points, chunk lengths, gains and numbers of samples per symbol", "why_tests_cant": "Independence of all other taps is a property of the autocorrelation of each PRBS over a whole period and of every channel; the test runs one random pattern and channel and compares two taps with a tolerance of 0.1.", "anchors": ["CommDspy/rx/clock_data_recovery.py:mueller_muller_step", "CommDspy/rx/lock_pattern.py:lock_pattern_to_signal", "test/test_cdr.py:mueller_muller_step_test", "CommDspy/auxiliary.py:buffer"]}
{"id": "C90", "title": "LMS adaptation lowers the error", "statement": "The adaptation loops of the equalisation test, ffe_dfe followed by ddlms_grad and a step against the gradient. With a reference, on any capture: if the step size times the number of taps times the power of the capture is at most twice the samples seen by the last tap, then after any number N of passes the mean squared error is not larger than at the start, and for every set of taps w it exceeds the error of w by at most 2 * distance^2(start, w) / (N * step size); so it approaches the best error. Without a reference, while four times the summed squared error at the start is below the squared distance of the levels, the decisions stay right at every pass and the taps are the same as with the reference; feedback taps, fed with decisions, behave likewise. The loops end with the taps of the first pass at which the stopping rule holds, or of all allowed passes, and end by themselves if the start error is below the allowed passes times the tolerance. Finding: with the constants of the test the error grows by 16 at each pass on a sample of amplitude 100, and on a sample of amplitude 1/1000 the loop reports convergence in its second pass with nearly the whole error left.", "quantifier": "all captures, references, levels, starting taps, step sizes within the bound, tolerances and numbers of passes", "why_tests_cant": "Each tap has its own averaging length and the decisions feed back into the gradient; the test runs one step size on one random channel to a tolerance of 0.01.", "anchors": ["CommDspy/rx/least_mean_squares.py:ddlms_grad", "CommDspy/rx/ffe_dfe_model.py:ffe_dfe", "test/test_equalization_estimation.py:equalization_lms_ffe_test", "test/test_equalization_estimation.py:equalization_lms_dfe_test"]}
{"id": "C91", "title": "LMS adaptation learns the taps", "statement": "The same loops, but for the taps themselves. If some taps w turn the capture exactly into the reference, and the capture excites the taps with strength lam (filtered by any taps v its mean power is at least lam times the squared length of v), then after N passes with a step size within the bound the squared distance of the taps to w is at most 2/(N * step size * lam) times that at the start. If the capture is the reference with postcursors h, the same holds for feedback taps adapted with the decisions of the slicer or with the reference, from every start whose squared distance to h is below what one wrong decision needs (independent of the length of the capture): all decisions of all passes are right.", "quantifier": "all captures, references, levels, starting taps, step sizes within the bound and numbers of passes", "why_tests_cant": "The feedback of decisions into the gradient has to be followed through every pass; the test compares the taps of one run with a tolerance of 0.01.", "anchors": ["CommDspy/rx/least_mean_squares.py:ddlms_grad", "CommDspy/rx/ffe_dfe_model.py:ffe_dfe", "test/test_equalization_estimation.py:equalization_lms_ffe_test", "test/test_equalization_estimation.py:equalization_lms_dfe_test"]}

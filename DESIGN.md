# Formal model of CommDspy in Rocq (Coq 8.16.1)

Source: `/repo` (TomerGeva/CommDspy, python), read as text only. All Coq files are in `rocq/theories`,
logical root `Verif`. The statements in words are in `properties.jsonl`, the theorem names per statement in
`MANIFEST.json`, the record of wrong programs tried against the theorems in `seeded/LOG.jsonl`.

## Approach

* Each python function is a total, executable Gallina function, branch by branch, in an `M_*.v` file.
  Exceptions are values: `res A := Ok a | Raise exn`. Every definition cites file and lines of `/repo` and
  says where it simplifies. Objects (PrbsIterator, Filter, the example link's receiver ...) are records,
  methods return the new record. Functions that write into the caller's array return the new content of it.
* numpy arrays are lists (1-D), lists of rows (2-D), or a record shape + data (n-D, row major) where the
  shape matters. Index wrap-around, slices, `reshape`, `arange`, `tile`, `argmin` tie breaking are explicit
  (`Py.v`, `PyQ.v`).
* Situations a model does not cover are not given a made-up value: either the theorem assumes them away, or
  the model answers `Unmodelled` (`outcome`, in `M_sim`, `M_rxloop`, `M_psa`), or `None` where numpy would
  produce inf or nan.
* Specifications are written separately from the models (`S_*.v`: small, index based, without the model's
  helpers), proofs are in `P_*.v`, and `Prop_*.v` has the theorems with `Print Assumptions` and an `Example`
  per theorem with hypotheses (a concrete, non trivial case that meets them).
* A documented or expected behaviour that the code does not have is a theorem with suffix `_refuted`
  (a finding, listed below). A property counts as proved when its statement draws the true boundary and both
  sides of it have theorems.

## Numbers

| model | numbers |
|---|---|
| `M_prbs M_aux M_symbol M_coding M_linear M_conv M_convdec M_lock M_sim M_simcheck` | integers `Z`; exact rationals `Q` for demapping and error probabilities |
| `M_slicer M_filter M_lms M_lock` (second half) `M_estim M_lasso M_rxloop` | exact rationals in lowest terms, `Qc`; every finite double is one |
| `M_soft M_delay M_channel M_jitter M_ctle M_eye M_psa M_link M_levels` (first half) | real numbers `R`; `num := option R` with `None` for inf/nan in `M_delay M_eye M_channel` |
| `M_levels` (second half) `M_convfloat` | IEEE binary64, round to nearest even: `SpecFloat` of the standard library |
| `M_f64 M_eq64` | IEEE binary64, round to nearest even: `binary_float 53 1024` of Flocq (definitions and lemmas only, Flocq adds no axiom) |
| `M_delay` Lagrange denominators | 64-bit integers with wrap-around |

Rounding of double arithmetic is modelled only in the rows that name binary64. Everywhere else the theorems are about
exact arithmetic on the same formulas.

## Files

| model | code | theorems |
|---|---|---|
| `M_aux` | auxiliary.py (polynomials, levels, gray table, buffer, upsample, zoh, bit helpers, hamming), constants.py, misc/help_functions.py check_binary | `Prop_aux` C11 C28 C31-C34 |
| `M_prbs` | tx/prbs_generator.py, tx/prbs_iterator.py | `Prop_prbs` C01-C05 |
| `M_symbol M_levels` | tx/bin2symbol.py, rx/symbol2bin.py, tx/mapping.py, rx/demapping.py, get_levels(full_scale) | `Prop_symbol` C06-C10, `Prop_demap` C88 |
| `M_coding` | tx/coding.py and rx/decoding.py line codes | `Prop_coding` C12-C17, C28 |
| `M_linear` | coding_linear, decoding_linear, misc/ml_decoding.py (block part) | `Prop_linear` C18-C21 |
| `M_conv M_convdec M_convfloat` | coding_conv, Trellis, decoding_conv_ml, decoding_conv_viterbi | `Prop_conv` C22-C27 |
| `M_slicer` | rx/slicer.py, rx/quantiztion.py | `Prop_slicer` C29 C30 |
| `M_lock` | rx/lock_pattern.py, rx/checker.py | `Prop_lock` C35-C38 |
| `M_filter` | misc/help_classes.py, rx/ffe_dfe_model.py | `Prop_filter` C39-C44 |
| `M_lms` | rx/least_mean_squares.py ddlms_grad, rx/clock_data_recovery.py | `Prop_lms` C45 C47 |
| `M_soft` | soft_ddlms_grad | `Prop_soft` C46 |
| `M_delay` | digital_delay.py | `Prop_delay` C48 C49 |
| `M_channel` | channel/pulse_shaping.py, channel/additive_noise_functions.py, scipy lfilter | `Prop_channel` C50-C52 C57 C62 |
| `M_jitter` | pulse_shape with random jitter, scipy interp1d (cubic, equidistant samples, extrapolating) | `Prop_jitter` C73 |
| `M_chanjit` | example_simulation Channel and FullLink with random jitter | `Prop_chanjit` C77 |
| `M_f64` | slicer, quantize and demapping (full_scale=False) on doubles, vectors | `Prop_f64` C74 |
| `M_eq64` | ffe_dfe with a DFE on doubles, dot products in any order | `Prop_eq64` C76 |
| `M_ctle` | rx/ctle_model.py, scipy bilinear and normalize | `Prop_ctle` C53 |
| `M_estim` | misc/least_squares.py, equalization_estimation.py, channel_estimation.py | `Prop_estim` `Prop_chanest` C54 C55 C63 |
| `M_lasso` | misc/least_squares.py: ols_manual, lasso_regression_manual (the random start is an argument) | `Prop_lasso` C63 C72 |
| `M_eye` | eye_diagram.py, numpy histogram | `Prop_eye` C56 |
| `M_psa` | psa.py, scipy welch, Blackman-Harris window | `Prop_psa` C61 |
| `M_sim` | example_simulation Encoder, Decoder, CodingData | `Prop_sim` C58 |
| `M_simcheck` | example_simulation PrbsData, PrbsGen, Checker | `Prop_simcheck` C60 C64 |
| `M_rxloop` | example_simulation MappingData, AdcData, FfeDfeData, Adc, FfeDfe, Receiver, convergence control | `Prop_rxloop` `Prop_rxparts` C59 C65-C68 |
| `M_link` | example_simulation ChannelData, Channel, CtleData, Ctle, ADC on real samples, FullLink | `Prop_link` C69 C70, `Prop_full` C71, `Prop_coded` C75, `Prop_peak` C78 |
| `M_share` | tap arrays shared by FfeDfeData, FfeDfe, Receiver and the caller (a store of arrays, scripts over several receivers) | `Prop_share` C79 |
| `M_linkst` | the objects of the example link after every line of a call, also one that raises; Memory, Simulation.gather_memory and perform_convergence | `Prop_linkst` C80 |
| `M_convdec` (again) | decoding_conv_viterbi on arbitrary bits | `Prop_viterbitot` C81 |
| `M_convdec` (again) | decoding_conv_viterbi on a stream with errors | `Prop_viterbierr` C83 |
| `M_coding`, `M_linear`, `M_filter` (again) | the decoders on wrong line symbols, ffe_dfe on wrong samples and wrong decisions | `Prop_reach` C84 |
| `M_genie` | README scripts tx_example and Genie error checker (test/example_scripts/example_runs.py): pattern, mapping, slicing, demapping, bits and PRBS check in doubles; the analog part between them is an arbitrary list of doubles | `Prop_genie` C85 |
| `M_estimfs` | the two estimation functions over the reals with prbs_full_scale; same control flow as `M_estim`, pseudo-inverse by orthogonal projection, lasso solver a parameter | `Prop_estimfs` C86 |
| `M_rxsearch` | example_runs.py rx_example and rx_example2 (README.md has the same search) from the CTLE output on, over the reals: phase search, oversampled filter, sampling, decision feedback; one definition with the settings as parameters; eye diagrams and the oversampled decision feedback equaliser which only feeds them left out | `Prop_rxsearch` C87 |
| `M_linkst`, `M_link` (again), settings of constants.py and config_file.py in `P_shipped` | links whose calls always return; the shipped configuration | `Prop_works` C82 |
| `M_cdr` | phase loop of test/test_cdr.py (lines 18 and 39-49): buffer, lock, Mueller-Muller step, phase update; exact rationals | `Prop_mmprbs` C89 (vocabulary `S_mmprbs`, proofs `P_mmprbs`, `P_mmlock`) |
| `M_lmsloop` | adaptation loops of test/test_equalization_estimation.py (lines 77-99, 133-158, algo 'hard'): filter, gradient, step, stopping rule; exact rationals; capture and reference aligned from the start (no lock, no cut of the first samples), no precursors | `Prop_lmsloop` C90 (vocabulary `S_lmsloop`, proofs `P_lmsalg`, `P_lmsloop`), `Prop_lmstaps` C91 (`S_lmstaps`, `P_lmstaps`) |

`B_list.v`, `B_qc.v` hold general lemmas; `P_gf2.v`, `P_linalg.v`, `P_dft.v`, `P_tone.v` hold the mathematics
of polynomials modulo 2, least squares, the discrete Fourier transform and window sums.

## Main proof ideas

* PRBS periods (C01): the register step is linear over GF(2); repeated squaring of the step matrix, computed
  in the kernel, gives M^(2^n-1) = 1 and M^((2^n-1)/q) <> 1 on every non-zero state for each prime q; a pigeonhole
  argument gives "every state". Balance and autocorrelation (C05) follow from it.
* Codes (C12-C27): induction over the history with the running state; argmin specification and triangle inequality for
  nearest codeword decoders; the trellis walk equals the polynomial description modulo 2; for Viterbi a survivor path
  invariant; the findings are concrete codes and patterns, computed.
* Locking and checkers (C35-C38): argmax specification, correlation counts agreements, two different phases of the
  sequence differ in 2^(n-1) places.
* Filters (C39-C44, C65): state invariants that describe the memory as a window of the past signal.
* Equaliser in doubles (C76): induction over all ways to evaluate a sum, error (1+u)^n - 1; strong induction over the
  samples, since equal decisions so far mean equal feedback now.
* Peak distortion (C78): pulse, channel filter and CTLE are lfilters, hence convolutions with their impulse responses;
  sampling turns the composition into one response per symbol.  The slicer input minus the wanted level is the residual
  response over the data plus disturbances of the codes through the FFE plus feedback errors; strong induction over the
  symbols removes the last term.
* Jitter in the link (C77): the link theorem of C71 holds for any channel stage whose output is near the clean one; spline
  moments are at most a multiple of the peak, so small displacements stay near, at the ends of a chunk too.
* Gradients (C45, C46): algebra of finite sums, derivatives with Coquelicot.
* Delay (C48): uniqueness of interpolation; the factorials up to order 20 fit 64 bits, at 21 they do not.
* CTLE (C53): polynomials as coefficient lists, evaluation of the bilinear image; stability through the root magnitudes.
* Least squares (C54, C55, C63): Gram-Schmidt over Qc, normal equations, minimal norm, convexity.
* Spectrum (C61): discrete orthogonality, Parseval, closed form of the window sums.
* Channel and CTLE objects (C69, C70): filters continue across chunks, so any cutting equals one call.
* Shared taps (C79): the call on the store is the call on values followed by a store update (an equation that covers
  exceptions too); ownership of arrays is an invariant of scripts.
* Calls that raise (C80): every group of lines is a state change with an outcome; erasing the states gives the models of
  C59 and C71, invariants are closed under every group of lines, so they hold wherever an exception left the call.
* Viterbi on arbitrary bits (C81): the metrics stay nonnegative rationals and every state keeps a survivor, because the
  table of transitions has an entry per pair of states (missing ones count n_out errors).
* Viterbi with errors (C83): the table of survivors after each chunk holds, per state, the unique path of closest
  transitions; two such paths that meet agree before, so over an intact tail a rival has merged and lost, or stayed apart.
* Links that never raise (C82): consistency is an invariant of every call and deed; each stage is shown to return on
  arbitrary inputs of the right sizes, so that noise and channel need no bound.  The Viterbi part is C81.
* Receiver (C59, C65-C68): invariants over all histories of chunks with an arbitrary analog input.
* Reach of errors (C84): wrong positions are listed without repetition and compared by inclusion (an error reaches its own
  position and the next one), blocks by summation; two feedback runs are compared by strong induction on the symbol number,
  with the equation of the equaliser (C41) and the uniqueness of the nearest level.
* Timing recovery (C89): the level of a symbol is an affine function of its bits written as +-1 chips, so the autocorrelation of the
  line is a fixed combination of that of the PRBS at lags k j and k j +- 1 (C05). In the difference of the detector the symmetric part
  cancels tap by tap and leaves the two taps beside the cursor; a rest of q symbols is bounded term by term. The lock score of a shift
  is a constant plus the tap hit by it (for PAM4 plus or minus 8/20 of the taps hit at neighbouring bits), largest at the largest tap.
* Documented error checker (C85): the levels and the quotients of the demapping are computed once as integers times powers of
  two, so that every rounding is settled by arithmetic; dropping symbols is moving on the seed; the lower bound of the README
  finding pairs the bits and uses that doubling permutes the residues modulo the odd period, so that balance (Gray coded)
  and the autocorrelation at shift one (not coded) count the pairs that cannot match.
* C86: the rational model is embedded in the real one (`q_estim_prbs`: every branch of the rational code compares exact numbers, so the
  embedding commutes with it). Orthogonal projection with rejection of dependent columns is equivariant under scaling single columns when the columns are independent, and
  under a common scaling always; that decides which settings rescale and which do not. numpy's rank tolerance is taken to be exact zero, as in C54.
* C87: the least squares solution is characterised by orthogonality (`costR_pyth`), so all best taps have the same output and the error of a phase is
  well defined; the loop keeps the first least of them. The oversampled filter commutes with sampling (`fir_upsampled`). Zero squared error on the
  fitted stretch plus periodicity of the stream gives the symbols; with feedback the decision of an exact level is that level (induction over the stretch).
* Adaptation (C90): each tap divides its slope by its own overlap n - i, so a pass is a gradient step in a weighted norm. `descent` bounds the
  quadratic term by Cauchy-Schwarz with the energy of the delayed samples; `approach` (convexity) makes the weighted distance to any taps fall by
  the step size times the excess error; summing gives the rate. A total error below a quarter of the squared level distance keeps every decision right, and
  descent keeps it so. For C91 the weighted distance to the true postcursors never grows, which keeps every error below half a level distance.

## Trusted base

* The Coq 8.16.1 kernel, including its `vm_compute` machine. No axioms of our own, no plugins, no switched off checks.
* The correspondence between the Gallina models and the python source, which is by reading, and the reading of
  numpy / scipy / sklearn behaviour stated in the comments: `lfilter`, `convolve`, `correlate`, `hankel`, `bilinear`,
  `normalize`, `histogram`, `linspace`, `welch`, `get_window('blackmanharris')`, `lstsq`, `Ridge`,
  `polyfromroots` are modelled by their documented algorithm in exact arithmetic.
* Oracles, universally quantified in the theorems: the normal draws of the noise generator, the result of sklearn's
  Lasso (where needed: any minimiser of its objective), scipy's `get_window` for other windows, the analog signal
  reaching the example receiver, the gradient function it calls, the result of each floating point dot product (any order of
  rounded additions, with or without fused multiplications).
* What `Print Assumptions` reports, listed per theorem at the end of this file. Integer and rational theorems are closed
  under the global context; theorems over `R` use axioms of the standard library's real numbers.

## Not modelled

* IEEE rounding except where stated, dtype overflow except where stated, memory and time.
* Plotting (psa lines 88-96, eye diagram figures, example_simulation figures and records that are only plotted), file output, the
  unittest code.
* ffe_dfe without a DFE in doubles (scipy.signal.convolve may choose an FFT).
* a[0] = 0 in the filter classes; sigma = 0 in soft_ddlms_grad; one-sample input of mueller_muller_step (0/0 cast to
  an integer); parameters of psa that are not positive.
* example_simulation: the attributes ending in _last that nothing reads. PrbsGen.get_prev_seed reads an attribute that is never set (AttributeError); it is mentioned in
  `M_simcheck` and not modelled further.
* Symbol counts n <= 0 of bin2symbol; level counts 0 of the gray table; a zero-dimensional input of most functions.

## Findings

Behaviour that contradicts the documentation or the evident intent, each with a theorem.

* `C02_tiling_any_polynomial_refuted`: ... but not beyond it: the tiling shortcut is wrong for a polynomial that is not maximal length (x^2 + 1, seed [1;0], six bits).
* `C06_single_symbol_refuted`: one symbol of k > 1 bits with any of the three flags raises.
* `C07_rejects_every_non_power_refuted`: not every non power of two is rejected: 16385 passes the np.isclose test and a stream of 13 ones is silently converted to no symbol at all.
* `C10_demapping_repeatable_refuted`: calling demapping twice on the same array object gives two different answers.
* `C12_gray_roundtrip_pam3_refuted`: the round trip fails for PAM3.
* `C13_differential_roundtrip_2d_refuted`: the round trip fails on a 2x2 array.
* `C15_bipolar_every_error_flagged_refuted`: an error with no mark after it can go unnoticed.
* `C15_bipolar_flag_sign_refuted`: two -1 marks at the start of the stream are flagged +1/2, not -1/2.
* `C17_diff_manchester_docstring_refuted`: on the example of the docstring (coding.py:131-132) the coder emits the complement.
* `C21_input_preserved_refuted`: With error_prob the array of received bits is overwritten with the corrected ones.
* `C22_initial_state_refuted`: [zi] has no effect; the encoder always starts from zero registers.
* `C22_trellis_ignores_taps_refuted`: with a feedback dictionary, the trellis ignores the delayed taps of an input without feedback.
* `C22_use_feedback_one_tap_refuted`: a one-tap generator is filtered with the feedback polynomial although use_feedback is 0.
* `C24_feedback_float_exactness_refuted`: in double precision the feedback recursion grows without bound and loses its parity.
* `C26_parallel_transitions_refuted`: an input without a memory cell gives parallel transitions; the decoder keeps only one of them, so an error-free stream is decoded wrongly although block outputs determine block inputs.
* `C27_viterbi_is_ml_refuted`: predecessors are chosen by the branch metric alone. One bit error: the ML decoder recovers the data, the Viterbi decoder returns a word that is strictly farther from every start state.
* `C28_accepts_only_bits_refuted`: "passes the check" does not mean "is over {0,1}".
* `C28_manchester_of_pm1_refuted`: a {-1,1} array is accepted and encoded as if it were all ones.
* `C29_shape_preserved_refuted`: Arrays of more than two dimensions come back flat.
* `C30_default_type_refuted`: The default quantisation type is not one of the accepted names: quantize without it always raises ValueError.
* `C30_negative_frac_bits_refuted`: the documented -1 fractional bits (levels 0,2,4,6) are ignored.
* `C32_clip_keeps_complete_rows_refuted`: clip can remove a complete last row.
* `C32_clip_removes_incomplete_row_refuted`: clip does not remove an incomplete last row when values repeat.
* `C36_lock_short_refuted`: a signal shorter than the pattern can be locked to the wrong place.
* `C38_econ_dead_input_refuted`: an all-zero stream (a dead input) is reported as an error-free PRBS.
* `C38_econ_skipped_refuted`: skipped bits (here the one erroneous bit) are counted as correct: the count equals the data length and the error vector is one short and all clear, although one of the bits is wrong.
* `C39_tii_single_refuted`: a memoryless FilterTII (one coefficient each) cannot process anything.
* `C40_integer_chunks_refuted`: integer chunks; the internal state is the same as for floats but every output is truncated towards zero.
* `C41_empty_dfe_refuted`: an empty (but not None) DFE fails on the second sample.
* `C41_empty_input_refuted`: an empty input comes back with two output samples when only an FFE is used.
* `C42_lost_decision_refuted`: at osr 2 and phase 1 a decision at the chunk boundary is lost.
* `C42_short_chunk_refuted`: after a chunk shorter than the FFE the returned memory is rejected by the next call, whatever its data.
* `C42_wrong_memory_refuted`: Wrongly sized memories raise TypeError (the ValueError with a message that the code intends is never reached).
* `C46_unscaled_refuted`: the error term is not the derivative announced in the docstring; one level, sigma = 1.
* `C47_amplitude_refuted`: the docstring compares amplitudes, the code compares signed values: with precursor -1 and postcursor 0 the precursor has the larger amplitude but the step goes to the postcursor side.
* `C48_order21_refuted`: from order 21 the integer denominators overflow 64 bits; the taps no longer sum to one.
* `C49_rcos_refuted`: roll-off 1 with an even oversampling ratio, and the default roll-off 0.5 at zero delay, divide by zero: every interpolated sample of that phase is not a number.
* `C52_tuple_refuted`: A denominator given as a tuple longer than the numerator is refused: its length is not taken into account for the default memory.
* `C53_dc_gain_refuted`: a first coefficient of at most 1e-14 is dropped and the DC gain is wrong, even in sign.
* `C53_hertz_refuted`: frequencies documented in Hz act as angular frequencies.
* `C53_stable_refuted`: with more zeros than poles the filter has a pole on the unit circle, at z = -1.
* `C54_mirrored_refuted`: with two or more postcursors and two or more feedback taps the last rows use mirrored samples (a window s[9], s[10], s[9] at the end), so taps which are exact at every time whose samples were captured are not found.
* `C54_mse_refuted`: the mse is relative to the power of the equaliser output, not to the variance of the constellation.
* `C54_normalise_without_dfe_refuted`: normalize=True without feedback taps always raises TypeError (None / gain).
* `C54_peak_refuted`: the peak does not become 1 when the tap of largest magnitude is negative (previous example: the taps 1/2, -2 become 1, -4).
* `C54_prbs_feedback_refuted`: with more feedback taps than other cursors the reference is moved out of the reach of the feed forward taps, so that not even a perfect channel is equalised: PRBS7, two feedback taps, one feed forward tap.
* `C54_synchronised_refuted`: signal and reference must not be synchronised, as documented, but the reference must be early by ffe_postcursor: an equaliser with that many postcursors which is exact on the synchronised pair is not found.
* `C55_pn_inv_refuted`: a capture with P and N swapped is not corrected by pn_inv_postcoding=True.
* `C55_true_channel_refuted`: the true channel is not returned, not even one which does nothing.
* `C56_axis_refuted`: the axis values are not the centres of the intervals they label: the first one is the lower edge of its interval and the last one the upper edge.
* `C56_clip_refuted`: samples outside of the "clipping value" are dropped, not clipped to it.
* `C56_phase_refuted`: interpolation moves the sampling phase by half a symbol: with two samples per symbol, first sample 1/2 and second sample -1/2, column 0 holds the positive samples without interpolation and the negative ones with it.
* `C56_zero_scale_refuted`: fs_value = 0 does not give an empty eye: numpy widens the range to [-1/2, 1/2] while the axis is all zeros.
* `C58_code_pair_refuted`: for every other pair there are settings with one bit per symbol (and, for the block and convolutional codes, a generator that works on its own for the pattern length used) and a pattern that is not delivered.
* `C58_pam4_both_refuted`: with PAM4 both flags together do not work either.
* `C58_pam4_single_refuted`: with PAM4 and one of the two flags no pattern with a non-zero symbol (before the last three) survives.
* `C58_shipped_refuted`: its first chunk (PRBS13 from the default seed) is not recovered, even over a perfect channel.
* `C58_two_level_single_refuted`: with two levels and one of the two flags exactly the patterns survive whose bits before the last map to 0.
* `C59_adaptation_stays_on_refuted`: The equaliser adaptation is never switched off.
* `C59_missing_gradient_refuted`: The function called, CommDspy.rx.lms_grad, does not exist: no converging turn completes.
* `C59_never_done_new_refuted`: In particular every receiver just built.
* `C59_never_done_refuted`: Whatever gradient function is called, whatever the received signal and the number of turns: a receiver that is not converging yet never gets [converge_done] from perform_convergence.
* `C60_short_chunk_refuted`: ... but (finding) with fewer: a chunk of at most n bits, whatever it contains, is reported error-free (only n zeros are not), because the counter locks anew on every chunk.
* `C61_default_refuted`: With the default resolution bandwidth every signal shorter than 1900 samples is refused.
* `C61_phase_noise_mode_refuted`: The documented mode for phase noise measurements does not exist.
* `C61_tone_power_refuted`: Mode dBm does not show the power A^2 / (2 r) (in mW) of a tone but 2 * rbw / fs of it.
* `C63_lasso_documented_refuted`: whatever minimiser of its own objective sklearn's Lasso returns, 'lasso' does not minimise the documented ||b - Ax||^2 + lambda ||x||_1.
* `C63_ols_manual_same_refuted`: "same as numpy function" fails for the residual: numpy returns an empty one for systems without more rows than independent columns, ols_manual a number.
* `C63_ridge_documented_refuted`: it does not minimise the documented ||b - Ax||^2 + lambda ||x||^2: for A = (1,1)', b = (1,1) the result is 0.
* `C63_ridge_manual_same_refuted`: it is not "same as sklearn function".
* `C65_short_chunk_refuted`: Without a DFE, a chunk shorter than the FFE makes the next call raise TypeError.
* `C66_lost_samples_refuted`: With the default phase osr // 2 and two samples per symbol (osr even), every chunk of k symbols gives 2 k - 1 samples: the first one is lost at every chunk.
* `C67_default_amplitude_refuted`: Without levels amp_pp_mv does not change what is sent but divides what the receiver expects: PAM4 with an amplitude of more than three times the receiver factor (the example: 750 and 0.75) merges outer and inner symbols.
* `C67_example_scale_refuted`: PAM4 with a scaling below 2, like the 0.75 of the example: the outer symbols are merged with the inner.
* `C69_iir_ignored_refuted`: IIR coefficients are lost: whatever they are, the FIR coefficients are used in their place, so that the channel b/b does nothing: the output of every history is the shaped pulse.
* `C69_iir_raises_refuted`: IIR coefficients without FIR coefficients: every call raises TypeError. With a FIR that starts with 0 (a delay) and has more than one coefficient: every call raises ValueError.
* `C71_default_phase_refuted`: The default sampling phase of the ADC, osr//2, reads the Nyquist pulses half a symbol away from their centre: for an even osr every sample of an alternating pattern is zero once the pulse window is full, whatever its amplitude and sign, so that no decision can recover it.
* `C72_default_step_refuted`: The default step 1e-3 has no such guarantee: with a matrix entry of 100 (a signal in mV) the residual grows.
* `C72_documented_refuted`: A run which has come to rest (its last step changes nothing) minimises neither the objective documented for lasso_regression, ||b - Aw||^2 + lambda ||w||_1, ...
* `C72_reached_refuted`: A run whose last allowed step meets the tolerance is reported as not having reached it.
* `C72_sklearn_refuted`: ... nor the objective of sklearn's Lasso, of which it is said to be a slower version: that one has an intercept and divides by the number of rows instead of columns.
* `C72_sparse_refuted`: Zero weights are not kept: also where the zero vector is the minimiser, a run starting there leaves it.
* `C73_ends_refuted`: At the ends of the signal that bound fails, since the polynomial of the last samples is continued: levels of one and a displacement of half a symbol give 5.6875.
* `C73_short_refuted`: One to three samples are shaped without jitter but refused with jitter, whatever the draws.
* `C73_streaming_refuted`: With jitter the chunks of a signal do not add up to the signal, though memory and draws are the same (C52_pulse_streaming holds without jitter): a displacement across the chunk border reads the continued polynomial instead of the next sample.
* `C74_demap_exact_refuted`: Just below the threshold the decision goes the wrong way: -2^-60 is nearer to -1 (symbol 1) than to 1, but its distance from -3 rounds to 3 and the tie at 1.5 goes to the even symbol 2. The slicer decides the other way round.
* `C74_exact_refuted`: The nearest level is not always returned: 2^-60 is closer to 1 than to -1, but both distances round to 1 and the first of them wins.
* `C74_quantize_infinity_refuted`: An overflowed sample (+infinity) is quantised to the most NEGATIVE value of the format.
* `C74_saturation_refuted`: A sample far above the constellation is decided as the LOWEST level: at 2^60 all four PAM4 distances round to the same number. Plus infinity, too, gives -3.
* `C75_differential_refuted`: Over a latency that is no whole number of chunks, every chunk of odd parity makes the first bit of the next one arrive inverted.
* `C75_manchester_half_refuted`: With the Manchester code and a latency of an odd number of line bits, every value handed out after the start-up differs from both sent bits it overlaps: it is the complement of two equal ones and 1/2 for two different ones. Neither the receiver nor the decoder looks for the boundaries of the cells.
* `C75_mlt3_refuted`: Over a latency that is no whole number of chunks, every chunk with an odd number of ones makes the first bit of the next one arrive inverted, and after a chunk with 4m+2 ones a first bit 0 is handed out as 2.
* `C76_order_refuted`: Near a threshold the decision depends on the order in which the dot product adds: for the samples 0.8, 1.2 and -4 and three unit taps one order gives -2 (decided -3), another one -2 + 2^-52 (decided -1).
* `C77_isi_own_draws_refuted`: With inter-symbol interference the jitter of one chunk reaches the next: the draws for the first chunk change the first sample of the second.
* `C78_start_refuted`: The criterion alone is not enough for a DFE when the main tap is not the first one: the DFE starts on decisions about samples that hold no symbol yet. Here no noise and no interference is left, six ones are sent, and all of them are received as zeros.
* `C79_integer_refuted`: With integer forward taps (np.array([0, 1, 0])) every converging call that would succeed with floats raises TypeError instead: the in-place addition cannot store floats.
* `C79_sharing_refuted`: Once there is a gradient function, converging one receiver rewrites the taps of every other receiver built from the same settings, the settings and the caller's array: the second receiver returns other bits than by itself.
* `C80_attempt_stays_refuted`: A convergence that was left by the exception is not undone by switching it off again. A receiver that has been asked once to converge, has raised and has been switched back, and one that has only been called, are given the same three chunks: the gain of the first is 381/256 instead of 1 and the two hand out different bits.
* `C80_attribute_error_refuted`: If the link carries two chunks, the exception is an AttributeError, and the gain has moved.
* `C80_never_returns_refuted`: Whatever the settings, the channel and the gradient function, perform_convergence of a link that is not converging yet does not return.
* `C80_package_refuted`: With the package as it is an exception leaves it in the first turn of the loop at the latest, the records are empty and the receiver is left converging.
* `C81_minus_one_refuted`: Where all transitions into a state put out ones only, a received chunk of zeros is as far from them as from the places of the table without a transition, which hold -1, and the first of these is taken: the decoder hands out -1, -1 for an error-free stream.
* `C82_converge_refuted`: perform_convergence never gets past its first turn on a link without a gradient function, which is how the example builds every receiver: whatever the consistent settings, the channel and the noise, it raises AttributeError with nothing recorded.
* `C82_shipped_converge_refuted`: So does the simulation shipped with the package, for every channel and every noise.
* `C82_shipped_first_refuted`: Already the first chunk of the shipped link cannot arrive: the transmitter sends outer symbols, and whatever the channel and the noise the symbols of the receiver differ from those sent.
* `C82_shipped_symbols_refuted`: The receiver factor 0.75 of the shipped settings puts all four slicer levels next to the two inner levels of the demapping: whatever the channel, the noise and the taps, the decoder of the shipped link only ever gets the symbols 1 and 2.
* `C83_shipped_refuted`: The code of the shipped example: with one wrong bit in a chunk sent when the encoder state is 1, the block is decoded wrongly, whatever else arrives, as soon as some chunk of the block that was sent in state 0 arrives intact. So a single error can ruin more data bits than it would have without the code.
* `C83_single_refuted`: The usual (7,5) code has free distance 5, yet this decoder does not correct single errors: a block with exactly one wrong bit in a chunk (not among the first two of the block) is decoded wrongly whenever the bit sent two before is 1, whatever else arrives, error-free or not, and however long the block.
* `C84_dfe_settles_refuted`: Without such a margin the feedback may never recover: on two levels with one feedback tap equal to the main tap, the samples 1, 0, 0, ... decide to 1, -1, 1, ... and -1, 0, 0, ... to the opposite of it. One wrong sample inverts every decision of a transmission of any length, though all other samples are received without noise.
* `C85_readme_refuted`: The error checking script of README.md slices with the full-scale levels but demaps without full_scale (README.md:414; example_runs.py:362 passes it). PAM4 symbols 0, 1, 2, 3 then come out as 1, 1, 2, 2, and on a link without any wrong decision the checker reports at least 2^(n-1) - 1 errors in the first two periods of a PRBS of order n, however it aligns itself: about one bit in four, and lost lock for any threshold up to that.
* `C85_runs_refuted`: The transmitter of test/example_scripts/example_runs.py (lines 12-18) sends NRZ with one bit per symbol while its receivers and its checker (lines 115, 231, 342) take PAM4 with two: with every sample within 1/16 of the sent one the checker reports at least 2^(n-1) errors in the first two periods of a PRBS of order n.
* `C86_overlap_refuted`: When the feed forward and feedback taps overlap the columns are dependent, numpy reports no residual, and the taps depend on the scale of the reference by more than a factor: the channel 1 + z^-1/2 with two feed forward and two feedback taps gives the feed forward taps (1, -2/9), and (2, -4/21) for the doubled reference.
* `C86_ridge_feedback_refuted`: Ridge regression shrinks the feedback taps of a scaled reference differently, also when the columns are independent.
* `C87_lost_refuted`: A receiver which cannot lock does not say so: for a stream of zeros the search keeps its initial phase -1, which is a valid index (the last phase), and rx_example returns zeros as samples of the symbols, without an exception.
* `C88_below_refuted`: A sample below the lowest level by more than half a distance (up to one and a half) comes out as the highest symbol, the level farthest from it: the position -1 reads numpy's last table entry.
* `C89_period_refuted`: A chunk of exactly one period, the natural choice, can drive the phase the wrong way: the detector forms one product less than the chunk has symbols, so one product of the period is missing. With a first postcursor one percent above the precursor it may see the precursor larger.
* `C90_large_refuted`: The step size of the feed forward test, 0.001, fits captures of amplitude about one: on a sample of 100 (the same signal in millivolts or in codes) the error grows by the factor 16 with every pass, though the tap 1/100 has no error.
* `C90_stop_refuted`: The same constants stop too early on weak captures: on a sample of 1/1000 the loop of the test ends by itself in its second pass with an error above 0.99, though the tap 1000 has no error. The loop therefore reports convergence that did not happen.

## Assumptions per theorem

Closed under the global context (321 theorems): C01_prbs_least_period, C01_prbs_visits_every_state, C01_prbs_zero_seed, C02_prbs_gen_any_polynomial, C02_prbs_gen_recurrence, C02_tiling_any_polynomial_refuted, C03_prbs_resume, C04_mismatch, C04_prbs_iterator, C05_prbs_autocorrelation, C05_prbs_balance, C06_bits_roundtrip, C06_single_symbol_refuted, C06_symbols_roundtrip, C07_rejects_every_non_power_refuted, C07_rejects_non_powers, C07_symbol_values, C08_demap_noise_margin, C08_map_demap, C08_mapping_custom_levels, C08_mapping_indices, C08_standard_levels, C09_full_scale_roundtrip_binary64, C10_demapping_effect_on_argument, C10_demapping_plain_repeatable, C10_demapping_repeatable_refuted, C11_gray_level_vec, C12_gray_pam3_exact, C12_gray_roundtrip, C12_gray_roundtrip_pam3_refuted, C13_differential_decode_empty, C13_differential_recurrence, C13_differential_rotation_insensitive, C13_differential_roundtrip_1d, C13_differential_roundtrip_2d_refuted, C13_differential_roundtrip_nd, C14_manchester_line, C14_manchester_odd_length, C14_manchester_roundtrip, C14_manchester_single_error, C15_bipolar_detect_exact, C15_bipolar_encoding, C15_bipolar_every_error_flagged_refuted, C15_bipolar_flag_sign_refuted, C15_bipolar_roundtrip, C15_bipolar_roundtrip_detect, C15_bipolar_single_error_flagged, C16_mlt3_empty, C16_mlt3_level, C16_mlt3_roundtrip, C16_mlt3_step, C17_diff_manchester_docstring_refuted, C17_diff_manchester_line, C17_diff_manchester_roundtrip, C18_coding_linear_bad_generator, C18_coding_linear_blocks, C18_coding_linear_xor, C19_decoding_linear_nearest, C20_decoding_linear_corrects, C21_error_prob_overwrites_input, C21_input_preserved_refuted, C21_second_call_reports_no_error, C22_coding_conv_is_trellis_walk, C22_coding_conv_parity, C22_initial_state_refuted, C22_trellis_ignores_taps_refuted, C22_use_feedback_one_tap_refuted, C22_validity, C23_coding_conv_causal, C23_coding_conv_linear, C24_feedback_float_exactness_refuted, C25_decoding_conv_ml_corrects, C25_decoding_conv_ml_nearest, C26_parallel_transitions_refuted, C26_viterbi_recovers, C27_viterbi_is_ml_refuted, C27_viterbi_short_pattern, C28_accepts_only_bits_refuted, C28_check_binary_accepts, C28_check_binary_bits, C28_check_binary_raises_ValueError, C28_manchester_of_pm1_refuted, C29_nearest_unique, C29_no_levels_raises, C29_plain_list_raises, C29_shape_preserved_refuted, C29_slicer_fixes_levels, C29_slicer_flattens, C29_slicer_idempotent, C29_slicer_monotone, C29_slicer_nearest, C30_default_type_refuted, C30_negative_frac_bits_refuted, C30_other_type_raises, C30_quantize_error, C30_quantize_value, C31_buffer_errors, C31_buffer_flatten, C31_buffer_frames, C32_buffer_clip, C32_clip_keeps_complete_rows_refuted, C32_clip_removes_incomplete_row_refuted, C33_concatenation, C33_upsample, C33_zoh, C34_bin2uint_uint2bin, C34_bin2uint_value, C34_get_bin_perm, C34_hamming, C34_uint2bin_bin2uint, C35_lock_binary_argmax, C35_lock_binary_empty, C35_lock_binary_nearest, C35_lock_binary_prefix, C36_lock_argmax, C36_lock_rotation, C36_lock_short_refuted, C37_checker_clean, C37_checker_finds_errors, C37_checker_init_lock, C38_econ_clean, C38_econ_dead_input_refuted, C38_econ_finds_errors, C38_econ_general, C38_econ_skipped_refuted, C39_filter_equation, C39_filters_agree, C39_filtertii_equation, C39_tii_single_refuted, C40_any_chunking, C40_ffedfe_chunks, C40_filter_chunks, C40_integer_chunks_refuted, C40_tii_chunks, C40_wrong_memory, C41_empty_dfe_refuted, C41_empty_input_refuted, C41_ffe_dfe_equation, C41_ffe_only, C41_single_tap, C42_lost_decision_refuted, C42_short_chunk_refuted, C42_streaming, C42_streaming_ffe, C42_streaming_one_tap, C42_streaming_osr1, C42_wrong_memory_refuted, C43_ffedfe_filters_agree, C44_matched_dfe, C45_derivative_determined, C45_equaliser_gradients, C45_gradients, C45_negative_dfe, C45_reference, C46_no_levels, C47_amplitude_refuted, C47_direction, C47_lengths, C47_step, C47_symmetry, C48_order0, C54_advanced, C54_exact, C54_mirrored_refuted, C54_mse_refuted, C54_normalise_without_dfe_refuted, C54_normalised, C54_optimal, C54_peak_refuted, C54_prbs_feedback_refuted, C54_prbs_flat, C54_prbs_optimal, C54_regularisation, C54_ridge, C54_synchronised_refuted, C55_estimate, C55_flag_unused, C55_flat, C55_nrz_channel, C55_pn_inv_refuted, C55_reference, C55_refusals, C55_reproduced, C55_scaling, C55_true_channel, C55_true_channel_refuted, C58_bin_diff, C58_bin_diff_mlt3, C58_bipolar, C58_code_pair_refuted, C58_conv, C58_diff_manchester, C58_fractional_bits_raise, C58_linear, C58_manchester, C58_mlt3, C58_pam4_both_refuted, C58_pam4_single_refuted, C58_plain, C58_shipped_refuted, C58_shipped_without_gray, C58_two_level_both, C58_two_level_single_refuted, C59_adaptation_stays_on_refuted, C59_clock_step, C59_delayed_samples, C59_gain_direction, C59_gain_step, C59_missing_gradient_refuted, C59_never_done_new_refuted, C59_never_done_refuted, C59_phase_frozen, C59_phase_history, C59_tap_step, C60_chunk_errors, C60_clean_chunk, C60_exact_count, C60_history, C60_init, C60_never_over, C60_short_chunk_refuted, C63_lasso_documented_refuted, C63_ols, C63_ols_manual, C63_ols_manual_same_refuted, C63_ols_unique, C63_refusals, C63_ridge_documented_refuted, C63_ridge_manual, C63_ridge_manual_same_refuted, C63_ridge_offset, C64_default_seed, C64_source_continues, C64_source_counts_clean, C65_any_chunking, C65_default_delays, C65_equation, C65_new_taps, C65_settings, C65_settings_sized, C65_short_chunk_refuted, C66_chunks, C66_conversion, C66_conversion_error, C66_lost_samples_refuted, C67_default_amplitude_refuted, C67_default_levels, C67_default_scale, C67_demapping_scale, C67_example_scale_refuted, C67_levels, C68_chunk, C68_history, C72_accuracy, C72_default_step_refuted, C72_descent, C72_documented_refuted, C72_errors, C72_path, C72_reached_refuted, C72_sklearn_refuted, C72_sparse_refuted, C72_terminates, C79_common, C79_created, C79_goes_through, C79_independent, C79_integer_refuted, C79_package, C79_private, C79_private_goes_through, C79_sharing_refuted, C80_attempt_receiver, C80_attempt_stays_refuted, C81_bits, C81_minus_one_refuted, C81_returns, C81_shape, C82_codes, C82_conv_carries, C82_levels, C83_corrects, C83_forgetting, C83_paths, C83_shipped_refuted, C83_single_refuted, C83_traceback, C83_uncorrected, C84_bipolar, C84_dfe_immune, C84_dfe_recovers, C84_dfe_settles_refuted, C84_diff_manchester, C84_differential, C84_differential_single, C84_gray, C84_linear, C84_manchester, C84_mlt3, C88_above, C88_below_refuted, C88_demap, C88_inside, C88_ladder, C89_dither, C89_length, C89_line, C89_lock, C89_period_refuted, C89_run, C89_step, C90_dfe, C90_dfe_loop, C90_ffe, C90_ffe_decisions, C90_large_refuted, C90_loop, C90_pass, C90_stop_refuted, C91_dfe, C91_ffe.

Axioms `ClassicalDedekindReals.sig_forall_dec`, `FunctionalExtensionality.functional_extensionality_dep` (13 theorems): C48_exact_on_polynomials, C48_integer_delay, C48_order21_refuted, C48_sum_one, C61_default_long, C61_window, C69_init, C73_spline, C77_small, C86_overlap_refuted, C86_reference, C86_reference_ridge, C86_ridge_feedback_refuted.

Axioms `ClassicalDedekindReals.sig_forall_dec`, `ClassicalDedekindReals.sig_not_dec`, `FunctionalExtensionality.functional_extensionality_dep` (44 theorems): C09_full_scale_accuracy, C09_full_scale_noise_margin, C09_full_scale_roundtrip, C09_full_scale_unit_power, C48_oversample, C49_errors, C49_integer_delay, C49_interpolation, C49_rcos_refuted, C49_samples_kept, C49_zero_delay, C50_no_isi, C50_pulse_zeros, C51_errors, C51_rect, C52_pulse_linear, C52_pulse_streaming, C61_default_window, C62_rcos_continuous, C62_rrc, C71_default_phase_refuted, C73_cubic, C73_defined, C73_ends_refuted, C73_no_jitter, C73_short_refuted, C73_small, C73_streaming_refuted, C73_value, C73_whole_samples, C86_agree, C86_channel, C86_equaliser, C86_equaliser_ridge, C86_factor, C86_raises, C87_exact, C87_feedback, C87_lost_refuted, C87_pattern, C87_search, C87_symbol_rate, C88_band, C88_demap_fs.

Axioms `ClassicalDedekindReals.sig_forall_dec`, `ClassicalDedekindReals.sig_not_dec`, `Classical_Prop.classic`, `FunctionalExtensionality.functional_extensionality_dep` (130 theorems): C46_error_term, C46_gradients, C46_unscaled_refuted, C52_channel, C52_channel_linear, C52_channel_memory, C52_tuple_refuted, C53_bounded_output, C53_dc_gain, C53_dc_gain_refuted, C53_hertz_refuted, C53_refusals, C53_stable, C53_stable_refuted, C53_step_settles, C53_streaming, C53_transfer_function, C56_axis, C56_axis_refuted, C56_bins, C56_clip_refuted, C56_conserved, C56_interpolated, C56_log, C56_phase_refuted, C56_refusals, C56_streaming, C56_zero_scale_refuted, C57_channel_noise, C57_noise_power, C61_amplified, C61_calibration, C61_constant_signal, C61_default_refuted, C61_nfft, C61_phase_noise_mode_refuted, C61_shifted, C61_single_side_band, C61_tone, C61_tone_power_refuted, C61_total_power, C61_unknown_mode, C61_works, C69_any_chunking, C69_call, C69_iir_ignored_refuted, C69_iir_raises_refuted, C69_noise, C69_unknown_type, C70_any_chunking, C70_matched, C70_memory, C71_error_free, C71_link, C71_noise, C74_correct, C74_demap, C74_demap_exact_refuted, C74_exact_refuted, C74_level_fixed, C74_monotone, C74_nearest, C74_nonfinite, C74_quantize, C74_quantize_infinity_refuted, C74_raises, C74_saturates, C74_saturation_refuted, C75_bipolar, C75_blocks, C75_differential, C75_differential_refuted, C75_link, C75_manchester_half_refuted, C75_mlt3, C75_mlt3_refuted, C75_whole_chunks, C76_decisions, C76_dot, C76_equation, C76_matched, C76_order_refuted, C76_streaming, C77_awgn, C77_error_free, C77_isi, C77_isi_own_draws_refuted, C77_jitter, C77_link, C77_no_jitter, C77_own_draws, C77_pulse, C77_short, C78_error_free, C78_link, C78_locked, C78_noise, C78_response, C78_start_refuted, C80_always, C80_analog, C80_attempt, C80_attribute_error_refuted, C80_between, C80_last_bits, C80_listening, C80_never_returns_refuted, C80_package_refuted, C80_pattern, C80_recorded_pattern, C80_records, C80_same_result, C80_stuck, C80_whole, C82_call, C82_converge_refuted, C82_history, C82_settings, C82_shipped, C82_shipped_converge_refuted, C82_shipped_first_refuted, C82_shipped_symbols_refuted, C85_clean, C85_counts, C85_gray_counts, C85_levels, C85_margin, C85_readme_refuted, C85_runs_refuted, C85_tx.

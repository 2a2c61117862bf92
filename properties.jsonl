{"id": "C01", "title": "Bitstream generator is exact over every full period", "statement": "If the random sequence given to BSGen is a reordering of 0..2^w-1, then any 2^w consecutive cycles (starting at any cycle) of the stream generated for an integer B with 0<=B<=2^w contain exactly B ones; B below 0 gives none and B above 2^w gives only ones.", "quantifier": "every width w, every permutation sequence, every binary value B, every starting cycle", "why_tests_cant": "there are (2^w)! sequences and unboundedly many start cycles; tests sample a few Sobol sequences", "anchors": ["stream/gen.py:BSGen.forward", "stream/gen.py:BSGen.__init__"]}
{"id": "C02", "title": "Number sequences are permutations", "statement": "RNG configured as sobol/rc, race/tc, race10/tc10 or sys delivers a sequence of length 2^width that contains each of 0..2^width-1 exactly once; tc is ascending and tc10 descending. For Sobol this holds for every dimension whose direction numbers satisfy the Sobol condition (each initial number m_j is odd and smaller than 2^(j+1)).", "quantifier": "every width, every generator name in the list, every admissible direction-number table", "why_tests_cant": "holds for all widths and all direction-number tables; a test enumerates a handful", "anchors": ["stream/gen.py:RNG.__init__", "stream/gen.py:get_sysrand_seq", "hw/stream/old/SobolRNG/SobolRNG.sv"]}
{"id": "C03", "title": "LFSR sequences are not exact, and by how much", "statement": "With a maximal-length LFSR of width w the sequence never contains 0, contains each of 1..2^w-1, and contains exactly one value (the seed) twice; consequently the stream of a value B with 1<=B<=2^w has B-1 or B ones per period, never another count, and the exactness of C01 fails.", "quantifier": "every width, every maximal-length feedback, every non-zero seed, every B", "why_tests_cant": "depends on all seeds and all primitive polynomials", "anchors": ["stream/gen.py:get_lfsr_seq", "stream/gen.py:RNG.__init__"]}
{"id": "C04", "title": "Binary quantisation is nearest, in range and exact on the grid", "statement": "BinGen maps a source value in [0,1] (unipolar) or [-1,1] (bipolar) to an integer in 0..2^w whose represented value is within half a grid step of the source, ties going to the even integer, monotone in the source; values on the grid are represented exactly.", "quantifier": "every rational source, every width, both modes", "why_tests_cant": "ranges over a dense set of sources and all widths", "anchors": ["stream/gen.py:BinGen.__init__"]}
{"id": "C05", "title": "End-to-end stream value after a full period", "statement": "Feeding a source value through BinGen, BSGen with a permutation RNG and ProgError for k*2^w cycles (k>=1) reports as value exactly the quantised source, and as error exactly the quantisation error, at most 2^-(w+1) unipolar and 2^-w bipolar.", "quantifier": "every source in range, width, permutation sequence, number of periods, both modes", "why_tests_cant": "composition over unbounded run lengths and all sequences", "anchors": ["stream/gen.py:BinGen", "stream/gen.py:BSGen", "metric/metric.py:ProgError"]}
{"id": "C06", "title": "Streams from one sequence are periodic, nested and maximally correlated", "statement": "Two streams generated from the same number sequence are bitwise ordered like their binary values, repeat with the sequence length, and after any monitored run the Correlation metric reports +1 for them whenever at least one (1,1) and one (0,0) pair was seen.", "quantifier": "every sequence (permutation or not), every pair of binary values, every run of cycles", "why_tests_cant": "a universally quantified correlation claim over all sequences and run lengths", "anchors": ["stream/gen.py:BSGen.forward", "metric/metric.py:Correlation"]}
{"id": "C07", "title": "Temporal coding has the advertised shape", "statement": "With the tc generator the stream of B over one period is B ones followed by 2^w-B zeros; with tc10 it is 2^w-B zeros followed by B ones.", "quantifier": "every width and every B in 0..2^w", "why_tests_cant": "all widths and values", "anchors": ["stream/gen.py:RNG.__init__", "stream/gen.py:BSGen.forward"]}
{"id": "C08", "title": "RawScale output range and order", "statement": "For every non-empty input whose quantile bounds are not both zero, RawScale returns values in [-1,1], preserves the order of elements, and if quantile is 1 divides every element by the largest magnitude; if both bounds are zero the division is by zero.", "quantifier": "every list of rationals, every quantile in (0,1]", "why_tests_cant": "ranges over all data vectors and quantiles", "anchors": ["stream/gen.py:RawScale"]}
{"id": "C09", "title": "Skewed synchroniser neither creates nor loses ones beyond its counter", "statement": "At every cycle the number of ones emitted on output 1 plus the counter content equals the number of ones received on input 1, the counter stays in 0..2^depth-1, outputs are bits and output 2 equals input 2; hence the emitted count never exceeds the received one and lags by at most 2^depth-1.", "quantifier": "every depth, every pair of input streams of any length", "why_tests_cant": "invariant over all histories", "anchors": ["stream/shuffle.py:SkewedSync.forward"]}
{"id": "C10", "title": "Skewed synchroniser yields maximally overlapping streams", "statement": "If in no segment of the history input 1 exceeds input 2 by more than 2^depth-1 ones, then every one of output 1 coincides with a one of output 2; output 1 is 1 without output 2 only while the counter is full.", "quantifier": "every depth and every pair of streams satisfying the segment condition, any length", "why_tests_cant": "condition and conclusion quantify over all prefixes/segments", "anchors": ["stream/shuffle.py:SkewedSync.forward"]}
{"id": "C11", "title": "Bipolar-to-unipolar conversion tracks the running maximum", "statement": "As long as the input walk (ones minus zeros) never falls more than 2^(depth-2) below its running maximum, Bi2Uni has emitted exactly max(0, maximum over all prefixes of ones minus zeros) ones at every cycle; without that condition it has emitted at least that many: emitted ones plus the accumulator equal ones minus zeros received plus the number of zeros that arrived while the accumulator was saturated.", "quantifier": "every depth>=2, every input stream, every prefix", "why_tests_cant": "all histories; saturation happens only for particular ones", "anchors": ["stream/shuffle.py:Bi2Uni.forward"]}
{"id": "C12", "title": "Unipolar-to-bipolar conversion is exact", "statement": "With depth>=4 Uni2Bi has emitted exactly floor((n + ones received)/2) ones after n cycles, for every input stream; with depth 3 this fails.", "quantifier": "every depth>=4, every stream, every prefix; a counterexample stream for depth 3", "why_tests_cant": "all streams", "anchors": ["stream/shuffle.py:Uni2Bi.forward"]}
{"id": "C13", "title": "Scaled unary addition is exact division", "statement": "With scale equal to the number of entries (unipolar or bipolar) and an accumulator bound 2^(depth-2) of at least 2*scale-1, FSUAdd has emitted after any number of cycles exactly floor(total ones received / scale) ones, so the output value differs from the scaled sum by less than 1/(cycles).", "quantifier": "every entry count, depth satisfying the bound, mode, every input history", "why_tests_cant": "all histories and sizes", "anchors": ["kernel/add.py:FSUAdd.forward"]}
{"id": "C14", "title": "Unary addition conserves value without saturation, and bounds it with", "statement": "For every scale>0 and mode, while no clamping takes effect, scale*ones emitted + accumulator = total ones received - cycles*offset, with the accumulator within +-2^(depth-2); hence the running value error is at most 2^(depth-2)/cycles before scaling. Whatever the input, the accumulator never leaves the range.", "quantifier": "every rational scale>0, entry count, depth, mode, every input history", "why_tests_cant": "invariant over all histories", "anchors": ["kernel/add.py:FSUAdd.forward"]}
{"id": "C15", "title": "An adder whose scale exceeds its accumulator is dead", "statement": "If scale > 2^(depth-2), FSUAdd outputs 0 at every cycle whatever the input; e.g. the default scale (the number of entries) with depth 10 and more than 256 entries.", "quantifier": "every such configuration, every input history", "why_tests_cant": "never firing is a claim about all infinite histories", "anchors": ["kernel/add.py:FSUAdd.__init__", "kernel/add.py:FSUAdd.forward"]}
{"id": "C16", "title": "Runtime scale and entry are latched by the first call", "statement": "FSUAdd uses for its whole life the scale/entry resolved at the first call (argument, else configuration, else size of the reduced dimension); arguments passed to later calls have no effect on any output.", "quantifier": "every configuration, every sequence of calls with arbitrary runtime arguments", "why_tests_cant": "all call sequences", "anchors": ["kernel/add.py:FSUAdd.forward"]}
{"id": "C17", "title": "Static unary multiplication depends only on the count of ones", "statement": "After any number of cycles the ones emitted by static FSUMul equal, for unipolar, the number of the first n1 sequence entries (cyclically) below B, and for bipolar this plus the number of the first n0 entries not below B, where n1 and n0 count ones and zeros received; so the result is independent of the order of the input bits.", "quantifier": "every width, number sequence, B, mode, every input stream", "why_tests_cant": "order independence quantifies over all permutations of all streams", "anchors": ["kernel/mul.py:FSUMul.FSUMul_forward"]}
{"id": "C18", "title": "Static unary multiplication is exact on full periods", "statement": "With a permutation sequence, if the received ones (and for bipolar also zeros) are multiples of 2^w then the emitted ones equal exactly n1*B/2^w (bipolar: n1*B/2^w + n0*(2^w-B)/2^w), i.e. the exact product of the two represented values.", "quantifier": "every width, permutation sequence, B, mode, stream with those counts", "why_tests_cant": "all streams and sequences", "anchors": ["kernel/mul.py:FSUMul.FSUMul_forward"]}
{"id": "C19", "title": "Sobol-based multiplication error is at most the width", "statement": "With a Sobol sequence of any dimension, unipolar static multiplication has emitted a number of ones within w of n1*B/2^w at every cycle (bipolar: within 2w), whatever the order and the number of input bits.", "quantifier": "every width, admissible direction numbers, B, stream, prefix", "why_tests_cant": "a worst-case discrepancy bound over all streams", "anchors": ["kernel/mul.py:FSUMul.FSUMul_forward", "stream/gen.py:RNG.__init__"]}
{"id": "C20", "title": "In-stream multiplication compares against the sliding window", "statement": "In-stream FSUMul emits at each cycle, when in_0 is 1, whether the number of ones among the previous 2^w bits of in_1 (before the current one, an alternating 0101.. pattern standing for the time before the start) exceeds the sequence entry selected by the number of ones so far received on in_0; bipolar emits the complement selected by the number of zeros when in_0 is 0.", "quantifier": "every width, sequence, mode, every pair of input streams", "why_tests_cant": "all histories", "anchors": ["kernel/mul.py:FSUMul.FSUMul_forward", "kernel/shiftreg.py:ShiftReg"]}
{"id": "C21", "title": "Shift register is a delay line with an exact population count", "statement": "ShiftReg returns at index i the input given entry-i calls ago (or the alternating start pattern), and the number of ones among the last entry enabled inputs; a call with mask 0 leaves all later results unchanged.", "quantifier": "every entry count, index, mask history, every input history", "why_tests_cant": "all histories", "anchors": ["kernel/shiftreg.py:ShiftReg.ShiftReg_forward"]}
{"id": "C22", "title": "JK flip-flop", "statement": "After any history the JKFF output is 1 iff since the last set (J=1,K=0) or reset (J=0,K=1), or the start, the number of toggles (J=K=1) has the right parity; with K tied to 1, every maximal run of L ones on J produces exactly ceil(L/2) ones, starting with a one.", "quantifier": "every history of J,K", "why_tests_cant": "all histories", "anchors": ["kernel/jkff.py:JKFF.forward"]}
{"id": "C23", "title": "Correlated division kernel samples past quotients", "statement": "When the divisor bit is 1 the quotient bit is the dividend bit; when it is 0 the quotient is one of the last `entry` quotient bits produced at divisor ones (the start pattern before that), at the position given by the sequence; bits at divisor zeros never influence later quotients.", "quantifier": "every power-of-two entry, number sequence, every pair of streams", "why_tests_cant": "all histories", "anchors": ["kernel/div.py:CORDIV_kernel.forward"]}
{"id": "C24", "title": "Correlated division kernel needs a power-of-two entry", "statement": "For entry a power of two the kernel never raises; for any other entry it raises an index error at a cycle no later than entry, whatever the inputs; neither CORDIV_kernel nor FSUDiv rejects such an entry at construction.", "quantifier": "every entry, every input history", "why_tests_cant": "all entries and histories", "anchors": ["kernel/div.py:CORDIV_kernel.__init__", "kernel/div.py:CORDIV_kernel.forward", "kernel/div.py:FSUDiv.__init__"]}
{"id": "C25", "title": "Unipolar division quotient ratio", "statement": "In unipolar FSUDiv, if in no segment the dividend exceeds the divisor by more than 2^depth_ss-1 ones, the quotient ones emitted at divisor ones number exactly the dividend ones received minus the synchroniser content, i.e. the quotient measured on divisor cycles is within (2^depth_ss-1)/divisor-ones of the true ratio.", "quantifier": "every depth, entry, sequence, and pair of streams satisfying the condition", "why_tests_cant": "accuracy over all streams", "anchors": ["kernel/div.py:FSUDiv.unipolar_forward"]}
{"id": "C26", "title": "Bipolar division sign and self-division", "statement": "Bipolar FSUDiv raises nothing, emits bits only, and its output is the unipolar division of the two converted magnitudes, converted back, flipped exactly in the cycles in which the current signs of the two inputs differ. Dividing a stream by itself gives the constant 1 from the cycle at which the magnitude walk has reached the number of kernel entries.", "quantifier": "every configuration with a power-of-two entry and every pair of streams", "why_tests_cant": "unbounded histories with several internal counters; tests check final values on a few random inputs", "anchors": ["kernel/div.py:FSUDiv.forward", "kernel/div.py:FSUDiv.bipolar_forward"]}
{"id": "C27", "title": "Sign and magnitude of a bipolar stream", "statement": "While its counter does not saturate, FSUSignAbs reports sign 1 exactly when more zeros than ones have been received so far, and the emitted (ones minus zeros) equals the absolute value of the received (ones minus zeros) plus twice the number of times the received walk came back from -1 to 0; outputs are always bits and output = input xor sign.", "quantifier": "every depth, every stream satisfying the no-saturation condition, every prefix", "why_tests_cant": "all histories", "anchors": ["kernel/signabs.py:FSUSignAbs.forward"]}
{"id": "C28", "title": "Unary ReLU is one-sided reflection", "statement": "FSUReLU never turns a one into a zero; in every prefix its output has at least as many ones as zeros minus one; while its counter does not saturate at the top its output walk equals the input walk plus twice ceil(max(0, max over prefixes of (-1 - walk))/2); in particular a stream whose prefixes never go below -1 passes unchanged.", "quantifier": "every depth>=1, every stream, every prefix", "why_tests_cant": "all histories", "anchors": ["kernel/relu.py:FSUReLU.forward"]}
{"id": "C29", "title": "Unary hard sigmoid is exact halving", "statement": "With depth>=4 FSUHardsigmoid has emitted exactly floor((n + ones received)/2) ones after n cycles in both modes; HUBHardsigmoid(x) equals clamp((x+1)/2,0,1) for its default scale. HUBReLU clips exactly to [0,scale], HUBHardtanh to [-1,1], and FSUHardtanh returns its input.", "quantifier": "every depth>=4, every stream; every rational x", "why_tests_cant": "all histories and inputs", "anchors": ["kernel/sigmoid.py:FSUHardsigmoid", "kernel/sigmoid.py:HUBHardsigmoid"]}
{"id": "C30", "title": "Square root by tracing", "statement": "Unipolar FSUSqrt with JK trace reads its input as follows: a 0 is copied; a 1 is copied, the next input is swallowed and a second 1 is written. Hence it never drops a one, writes at most twice the ones received, and for every input stream of value below 1/4 its value stays strictly below the square root. With the division kernel as trace, inputs are taken in pairs: the first passes, the second is raised to 1 if the first was 1, otherwise or-ed with a recorded quotient. In all modes nothing raises, outputs are bits and no input one is dropped.", "quantifier": "every stream, every prefix, both modes, both trace kinds, every index sequence", "why_tests_cant": "statement about every prefix of every stream; tests compare with sqrt up to a tolerance on random values", "anchors": ["kernel/sqrt.py:FSUSqrt.forward", "kernel/sqrt.py:FSUSqrt.unipolar_trace", "kernel/jkff.py:JKFF.forward"]}
{"id": "C31", "title": "Square root by emission conserves ones and never saturates", "statement": "In the emit modes with entry_sr up to 128 the internal adder never saturates: after every cycle ones received + bits re-injected - ones emitted lies in 0..entry_sr, the output is 1 exactly when that count (including the current input and re-injected bit) is positive, and the bit re-injected is the previous output (bipolar: its unipolar conversion) and not the output entry_sr cycles before it, so the scrambling index is constantly 0. With entry_sr = 256 the adder does saturate and ones are lost.", "quantifier": "every entry_sr up to 128 (255 in the model), every stream, every prefix, both modes", "why_tests_cant": "worst case needs specific streams of unbounded length", "anchors": ["kernel/sqrt.py:FSUSqrt.forward", "kernel/sqrt.py:FSUSqrt.unipolar_emit", "kernel/add.py:FSUAdd.forward"]}
{"id": "C32", "title": "Parallel-counter linear layer equals the sum of unary multipliers", "statement": "For every batch row and output, FSULinearPC (rate coded weights) returns at each cycle the sum over inputs of the bit a static FSUMul with that weight would give, plus the bias bit; the result lies in 0..in_features(+1). For temporal coded weights the index advances every cycle instead.", "quantifier": "every size, weight, bias, sequence, mode, every input history", "why_tests_cant": "all sizes and histories", "anchors": ["kernel/linear.py:FSULinearPC"]}
{"id": "C33", "title": "Unary linear layer accumulates exactly", "statement": "With scale = in_features+bias and depth with 2^(depth-2)>=2*scale-1, FSULinear has emitted floor(total of all product bits / scale) ones per output; over a full period with constant-count inputs it is the exact scaled dot product.", "quantifier": "every size, history, mode", "why_tests_cant": "all sizes and histories", "anchors": ["kernel/linear.py:FSULinear.forward"]}
{"id": "C34", "title": "Bias without bias_ext cannot be constructed", "statement": "FSULinearPC/FSULinear/FSUConv2dPC/FSUConv2d with bias enabled but no external bias (the documented defaults) always fail in the constructor; with bias_ext given or bias disabled they do not.", "quantifier": "every configuration", "why_tests_cant": "claim about all configurations", "anchors": ["kernel/linear.py:FSULinearPC.__init__", "kernel/conv.py:FSUConv2dPC.__init__"]}
{"id": "C35", "title": "Unary convolution equals the linear layer on windows", "statement": "FSUConv2d output at every position equals the parallel-counter layer applied to the window of the padded input at that position; padding bits alternate 0,1,0,1 by call in bipolar mode and are 0 in unipolar mode, so padded positions contribute bipolar zero.", "quantifier": "every size, stride, padding, dilation and history", "why_tests_cant": "all shapes and histories", "anchors": ["kernel/conv.py:FSUConv2dPC"]}
{"id": "C36", "title": "Convolution output shape counts window positions", "statement": "conv2d_output_shape returns for each axis exactly the number of positions at which the dilated kernel fits in the padded input.", "quantifier": "every size, kernel, stride>=1, padding, dilation", "why_tests_cant": "all integer configurations", "anchors": ["kernel/utils.py:conv2d_output_shape"]}
{"id": "C37", "title": "Padding for a requested convolution size", "statement": "The padding returned by conv2d_get_padding makes conv2d_output_shape return exactly the requested size; its two sides differ by at most one.", "quantifier": "all integer configurations with stride>=1", "why_tests_cant": "all integer configurations", "anchors": ["kernel/utils.py:conv2d_get_padding", "kernel/utils.py:conv2d_output_shape"]}
{"id": "C38", "title": "Padding for a requested transposed convolution size is wrong", "statement": "The padding returned by convtransp2d_get_padding reproduces the requested size through convtransp2d_output_shape exactly when the required total padding T is -1, 0 or 1 on both axes (it halves T twice); for every T>=2 it returns the wrong size.", "quantifier": "all integer configurations", "why_tests_cant": "all integer configurations", "anchors": ["kernel/utils.py:convtransp2d_get_padding", "kernel/utils.py:convtransp2d_output_shape"]}
{"id": "C39", "title": "HUB multiplication table", "statement": "The HUB lookup table entry for magnitudes (c,w) is the number of the first c sequence entries below w when both sequences are permutations; it is 0 if either is 0, monotone in both, between max(0,c+w-M) and min(c,w), and for a Sobol weight sequence within log2(M) of c*w/M.", "quantifier": "every width, all permutation sequences, every pair of magnitudes", "why_tests_cant": "all table entries of all widths and sequences", "anchors": ["kernel/linear.py:HUBLinear.__init__"]}
{"id": "C40", "title": "HUB linear layer error bound", "statement": "Each output of HUBLinear differs from the dot product of its quantised operands by at most in_features*(width-1) table units when the weight sequence is Sobol; sign and zero are exact.", "quantifier": "every size, rational input/weight/bias", "why_tests_cant": "all inputs and sizes", "anchors": ["kernel/linear.py:HUBLinearFunction.forward"]}
{"id": "C41", "title": "Fixed-point linear layer is exact on representable data", "statement": "FXPLinear returns the exact affine map when every input and weight is an integer multiple of its shift step and within range; otherwise each quantised operand is within half a step of the real one or saturated, so the error is bounded by the sum of the operand errors.", "quantifier": "every size, rational data, widths", "why_tests_cant": "all inputs", "anchors": ["kernel/linear.py:FXPLinearFunction.forward", "kernel/utils.py:rshift_offset"]}
{"id": "C42", "title": "TLUT digit decomposition round-trips", "statement": "Splitting an integer of magnitude below 2^width into signed base-2^widtht digits and re-weighting them returns exactly the same integer when the early-termination cycle is 2^widtht; with a smaller cycle every digit is clamped to cycle-1 and the result keeps sign and does not grow in magnitude.", "quantifier": "every width, widtht>=1, integer in range, cycle", "why_tests_cant": "all integers and widths", "anchors": ["kernel/linear.py:TLUTLinearFXPFXPFunction.forward"]}
{"id": "C43", "title": "Fixed-point rounding", "statement": "Round(intwidth, fracwidth) returns a multiple of 2^-fracwidth in the symmetric range, nearest to the input when it is in range, saturated otherwise; it is idempotent, monotone and odd.", "quantifier": "every rational input, every intwidth/fracwidth", "why_tests_cant": "dense domain", "anchors": ["kernel/utils.py:Round", "kernel/utils.py:RoundSTE"]}
{"id": "C44", "title": "Shift offsets normalise magnitudes", "statement": "rshift_offset with rounding ceil/floor/round returns shifts such that the scaled maximum magnitude lies in (2^(w-1),2^w], [2^w,2^(w+1)) and (2^(w-1/2),2^(w+1/2)) respectively; the swapped upper/lower names do not matter; all-zero data makes the logarithm undefined.", "quantifier": "every non-zero data vector, quantile and width", "why_tests_cant": "all data vectors", "anchors": ["kernel/utils.py:rshift_offset"]}
{"id": "C45", "title": "Weight clipper output is on the grid", "statement": "After clipping every weight is a multiple of the grid step within [0,1] or [-1,1], within half a step of the clamped input; clipping is idempotent; the constructor argument `method` never has any effect: the first call normalises iff frequency<=1 and later calls clip.", "quantifier": "every tensor, mode, bitwidth, call sequence", "why_tests_cant": "all tensors and call sequences", "anchors": ["kernel/utils.py:NN_SC_Weight_Clipper"]}
{"id": "C46", "title": "Truncated normal result is inside two standard deviations", "statement": "Whenever truncated_normal returns, every element of the returned tensor is within [mean-2std, mean+2std] and is the first in-range element of its own column of draws; it returns after exactly the first round by which every element has been in range, and the tensor passed in holds the unfiltered first draw.", "quantifier": "every sequence of random draws, every size", "why_tests_cant": "loop over unbounded random draws", "anchors": ["kernel/utils.py:truncated_normal"]}
{"id": "C47", "title": "Progressive error is what it says", "statement": "After n>=1 monitored cycles ProgError reports value ones/n (bipolar 2*ones/n-1) and its difference to clamp(source/scale,-1,1); the value is in range, and one more cycle changes it by at most 1/(n+1) unipolar and 2/(n+1) bipolar.", "quantifier": "every stream, source, scale, prefix", "why_tests_cant": "all histories", "anchors": ["metric/metric.py:ProgError"]}
{"id": "C48", "title": "Stability reports the last unstable cycle", "statement": "After n>=1 cycles cycle_to_stable equals the last cycle at which the absolute progressive error exceeded the threshold (0 if none), and stability = 1 - max(1,that)/n, in [0,1-1/n].", "quantifier": "every stream, source, threshold, prefix", "why_tests_cant": "all histories", "anchors": ["metric/metric.py:Stability"]}
{"id": "C49", "title": "Correlation metric is well defined and bounded", "statement": "For every monitored history the reported SCC is in [-1,1]; the guard against a zero denominator never changes a result with non-zero numerator; it is +1 for nested non-constant streams, -1 for streams with no (1,1) or no (0,0) pair but (1,0) and (0,1) pairs, symmetric in the two inputs; with one argument it uses the one-cycle delayed stream.", "quantifier": "every pair of streams of every length", "why_tests_cant": "all histories", "anchors": ["metric/metric.py:Correlation"]}
{"id": "C50", "title": "Float32 cycle counters stop at 2^24", "statement": "ProgError/Stability/Correlation counters kept in float32 count exactly up to 2^24 cycles and never exceed 2^24 however many more cycles are monitored, so the reported value is wrong for longer streams.", "quantifier": "every number of cycles", "why_tests_cant": "needs more than 16 million cycles and is a statement about all n", "anchors": ["metric/metric.py:ProgError.Monitor", "metric/metric.py:Correlation.Monitor"]}
{"id": "C51", "title": "Hard MGU cell is bounded", "statement": "HardMGUCell and HardMGUCellFXP started from a hidden state in [-1,1] keep every hidden state in [-1,1] for every input sequence, weights and biases; the fixed-point version keeps it on the 2^-fracwidth grid. All intermediate attributes stay in the unary range, each step is the gated convex combination (1-f)n + f h of the reference recurrence (in the fixed-point cell up to one grid step), so the final hardtanh never clips.", "quantifier": "every size, weights, input sequence of any length", "why_tests_cant": "induction over unbounded sequences", "anchors": ["kernel/rnn.py:HardMGUCell", "kernel/rnn.py:HardMGUCellFXP"]}
{"id": "C52", "title": "Lanes are independent", "statement": "Every element of a tensor processed by FSUReLU, FSUSignAbs, JKFF, Bi2Uni, Uni2Bi and FSUAdd evolves as if it were processed alone, under torch's broadcasting: for any history of input shapes, either the shapes do not broadcast and a RuntimeError is raised, or every output has the broadcast shape of the inputs so far and its element at position i is what the one-lane kernel outputs on the input elements that position i sees. FSUMul (static and in-stream) and SkewedSync do so on histories of one shape; SkewedSync, unlike the others, silently restarts all its counters at 0 when the shape changes.", "quantifier": "every shape and history, for each modelled module", "why_tests_cant": "non-interference over all histories", "anchors": ["kernel/add.py", "kernel/relu.py", "kernel/signabs.py", "stream/shuffle.py", "kernel/mul.py", "kernel/jkff.py"]}
{"id": "C53", "title": "Straight-through gradients are the adjoint of the exact layer", "statement": "The gradients returned by the HUB/FXP/TLUT linear functions are those of the exact affine layer: for all perturbations dX,dW,db the inner product of grad_output with the exact change equals the sum of inner products of returned gradients with the perturbations; the bias gradient is the column sum.", "quantifier": "all sizes and matrices", "why_tests_cant": "all sizes and matrices", "anchors": ["kernel/linear.py:HUBLinearFunction.backward", "kernel/linear.py:FXPLinearFunction.backward", "kernel/linear.py:TLUTLinearFXPFXPFunction.backward"]}
{"id": "C54", "title": "Simulator versus RTL", "statement": "On every history of bits the SystemVerilog modules produce the output streams of the Python modules for SkewedSync and for BISQRT_S_JK_U (FSUSqrt unipolar, JK trace), and the same delayed by one clock for the sign of Abs/Sign (FSUSignAbs), JKFF and Uni2Bi; Abs.sv's absolute value differs from FSUSignAbs's exactly at the cycles where the Python sign changes; Bi2Uni.sv agrees (one clock later) as long as no window of the input has more than 2^(DEP-2) surplus zeros, and its register wraps on a long enough run of zeros, where it emits ones and the Python none; CORDIV_kernel.sv (hence ISCBDIV_U.sv) keeps the last quotients of all clocks where the Python keeps those at divisor ones, and the streams differ; BISQRT_S_JK_B.sv feeds its Bi2Uni from the input where the Python uses the output, and the streams differ.", "quantifier": "every depth and every input history; witness histories for the mismatches, for every width in the case of Bi2Uni", "why_tests_cant": "equivalence over all histories", "anchors": ["hw/stream/shuffle/SkewedSync.sv", "hw/kernel/abs/Abs.sv", "hw/kernel/sign/Sign.sv", "hw/kernel/jkff/JKFF.sv", "hw/kernel/div/CORDIV_kernel.sv", "hw/kernel/div/ISCBDIV_U.sv", "hw/stream/shuffle/Bi2Uni.sv", "hw/stream/shuffle/Uni2Bi.sv", "hw/kernel/sqrt/BISQRT_S_JK_U.sv", "hw/kernel/sqrt/BISQRT_S_JK_B.sv"]}
{"id": "C55", "title": "TLUT float operands keep mantissa bits beyond the configured width", "statement": "TLUTLinear's float temporal path keeps, for an operand m*2^e with 1/2<=|m|<1, the digits of m*2^width in base 2^temporal_bitwidth with only the lowest digit capped by the cycle count: bits of the mantissa below 2^-width survive unless the lowest digit is saturated; operands whose mantissa fits in width bits pass unchanged when the cycle count covers a full digit.", "quantifier": "every operand, width, digit size and cycle count", "why_tests_cant": "all rationals", "anchors": ["kernel/linear.py:TLUTLinearFPFPFunction"]}
{"id": "C56", "title": "HUBLinear with a temporal weight uses the input-controlled table", "statement": "When the weight RNG is the temporal one, the entry HUBLinear looks up for input magnitude i and weight magnitude j counts how many of the first i entries of the input sequence are below j: the operand roles are exchanged, and it differs for some magnitudes from the weight-controlled product (how many of the first j entries of the input sequence are below i).", "quantifier": "every width, generator pair and pair of magnitudes; a witness for the difference", "why_tests_cant": "all widths and magnitudes", "anchors": ["kernel/linear.py:HUBLinear"]}
{"id": "C57", "title": "Pair padding makes the unary convolution raise", "statement": "FSUConv2dPC hands a padding pair (a, b) to ConstantPad2d, which reads it as (left, right), and to conv2d_output_shape, which reads it as (height, width): whenever the two counts of window positions differ the first call raises, and for a padding (p, p) with p >= 1 and unit strides it raises on every image, kernel and dilation, although the number p works.", "quantifier": "every layer with a pair as padding, every image size and content", "why_tests_cant": "the space of kernel, dilation, stride and image sizes is unbounded; the project's tests only give a number", "anchors": ["kernel/conv.py:FSUConv2dPC.__init__", "kernel/utils.py:conv2d_output_shape"]}
{"id": "C58", "title": "The float32 evaluation of FSUAdd is the exact one on a binary grid", "statement": "Torch evaluates FSUAdd's accumulator in float32. For scales that are multiples of 2^-g and limits, entries and scale that fit 24 bits of that grid, every bit of the output stream equals that of exact arithmetic, for every history; for a scale of 1/3 it does not. The rounding function used is the round-to-nearest of the binary32 format.", "quantifier": "every configuration within the bound, every history; a witness outside", "why_tests_cant": "all histories of any length; rounding errors appear only for particular scales and histories", "anchors": ["kernel/add.py:FSUAdd.forward"]}
{"id": "C59", "title": "The RTL Sobol generator follows torch for one period only", "statement": "SobolRNGDim1.sv's value on a clock depends only on the number k of enabled clocks before it: for k < 2^w it is the k-th entry of the sequence of RNG(width=w, dim=1, rng='Sobol'), and in every second period of 2^w it is that sequence (cyclically) xor 1 xor 2^(w-1), because the least-significant-zero detector answers 0 for the all-ones counter; every period still lists each value of [0, 2^w) exactly once.", "quantifier": "every width up to 30, every enable history", "why_tests_cant": "all widths and all enable histories", "anchors": ["hw/stream/old/SobolRNG/SobolRNGDim1.sv", "hw/stream/old/SobolRNG/LSZ.sv", "stream/gen.py:RNG"]}
{"id": "C60", "title": "RTL multipliers, adders and MAC against FSUMul, FSUAdd and FSULinear", "statement": "uMUL_uni and uMUL_bi output the bits of FSUMul(static=True) driven by torch's first Sobol dimension on every stream that enables each generator at most 2^w times (from reset, with the operand loaded on the first clock, all bits but the first), and different bits on some longer stream; uSADD8 and uSADD16 output the bits of the scaled unipolar FSUAdd on every history; uMAC_uni_scaled outputs the bits of the scaled unipolar FSULinear without bias on 16 inputs when each input stream has at most 2^w ones.", "quantifier": "every width up to 30, operand and history in the stated sets; a witness for the difference", "why_tests_cant": "equivalence over all operands and histories", "anchors": ["hw/kernel/old/uMUL_uni/uMUL_uni.sv", "hw/kernel/old/uMUL_bi/uMUL_bi.sv", "hw/kernel/old/uSADD/uSADD8.sv", "hw/kernel/old/uSADD/uSADD16.sv", "hw/kernel/old/MAC16/uMAC_uni_scaled/uMAC_uni_scaled.sv", "kernel/mul.py:FSUMul", "kernel/add.py:FSUAdd", "kernel/linear.py:FSULinear"]}
{"id": "C61", "title": "Binary-interfaced convolutions are sums over taps", "statement": "HUBConv2d, FXPConv2d and TLUTConv2d return, at every image, output channel and position, the sum over the taps of the layer's product of the (zero-padded) pixel and the filter entry, plus the bias: for HUBConv2d with Sobol tables within taps*w*2^(w+ri+rw) of the convolution of the quantised operands, for FXPConv2d the convolution of the quantised operands (the exact convolution on representable data), for TLUTConv2d on fixed-point formats without early termination the convolution of the truncated operands with shifts taken from the window values.", "quantifier": "every batch, channel count, image, kernel, stride, dilation, padding, width and operand values", "why_tests_cant": "the geometry and the values are unbounded", "anchors": ["kernel/conv.py:HUBConv2d", "kernel/conv.py:FXPConv2d", "kernel/conv.py:TLUTConv2d"]}
{"id": "C62", "title": "Pixels outside every window", "statement": "TLUTConv2d's output is the same for two inputs that agree on every pixel some tap covers. HUBConv2d's and FXPConv2d's are so only when the two inputs give the same quantisation shifts: these are taken from the whole tensor, so a large pixel that no window covers changes the output.", "quantifier": "every geometry and pair of inputs; a witness for the difference", "why_tests_cant": "non-interference between all pairs of inputs", "anchors": ["kernel/conv.py:HUBConv2d.forward", "kernel/conv.py:FXPConv2d.forward", "kernel/conv.py:TLUTConv2d.forward"]}
{"id": "C63", "title": "TLUT formats", "statement": "TLUTLinear and TLUTConv2d accept exactly the configurations with known temporal operand, format and rounding names (any case), quantiles in (0,1] and signmag. With one fixed-point and one floating-point format and no early termination the layer truncates the temporal coded operand to fixed point, whatever its declared format, and leaves the other operand as it is: a weight declared fixed-point is not quantised when the input is temporal coded, and a temporal coded bfloat16 input can be flushed to zero.", "quantifier": "every configuration and operand matrices; witnesses", "why_tests_cant": "all names, widths and matrices", "anchors": ["kernel/linear.py:TLUTLinear", "kernel/linear.py:TLUTLinearFXPFPFunction"]}
{"id": "C64", "title": "FSUMGUCell is the composition of its modules on every lane", "statement": "For every history of calls with a fixed batch size, each of fg_in, fg, fg_hx, ng, fg_ng and hy is, per batch row and hidden unit, the stream its module would give alone: the linear layers on the concatenated streams, the scaled addition with 1, the static multiplication by the buffered state, the in-stream multiplication and the addition of three with scale 1. The forget gate has floor((ones(fg_in)+n)/2) ones, fg_hx has the ones the sequence prescribes for the buffered state, and while the last adder does not saturate hy has as many ones as the longest climb of the level ng - fg_ng + fg_hx.", "quantifier": "every size, weight, bias, buffered state, depth and history of calls", "why_tests_cant": "histories and sizes are unbounded; tests compare one run with a tolerance", "anchors": ["kernel/rnn.py:FSUMGUCell.forward"]}
{"id": "C65", "title": "FSUMGUCell: accepted arguments and raising calls", "statement": "The constructor succeeds on bipolar, well-shaped arguments with a buffered state and a rate coded sequence, and only on bipolar well-shaped arguments with a buffered state; a temporal coded sequence is accepted only with a single linear entry. A call raises RuntimeError if a size is wrong, if the batch size differs from that of an earlier call, or if the buffered state has another batch size (other than 1).", "quantifier": "every argument list and history", "why_tests_cant": "the space of sizes and names is unbounded", "anchors": ["kernel/rnn.py:FSUMGUCell.__init__", "kernel/rnn.py:FSUMGUCell.check_forward_input", "kernel/rnn.py:FSUMGUCell.check_forward_hidden"]}
{"id": "C66", "title": "HUBMGUCell is the value of one period of FSUMGUCell", "statement": "HUBMGUCell.forward returns the bipolar value of the result stream of a fresh FSUMGUCell over 2^width calls whose operands are the bit streams of input and state (zero if None); the result lies on the grid (2k-2^width)/2^width in [-1,1]. It is not always within one grid step of HardMGUCell.", "quantifier": "every size, parameter, input and state; a witness for the difference", "why_tests_cant": "all widths, sizes and values", "anchors": ["kernel/rnn.py:HUBMGUCell.forward", "kernel/rnn.py:HardMGUCell.forward"]}
{"id": "C67", "title": "FSUAdd with any scale emits the longest climb", "statement": "For any positive scale s and either mode, while the accumulator does not saturate, FSUAdd has emitted at least k ones after n columns iff there are k increasing times at which the received level (ones received minus offsets) has reached s, 2s, ..., ks; in unipolar mode iff the level reaches (i+1)s at time n-k+1+i for each i<k.", "quantifier": "every scale, mode, width of columns and history", "why_tests_cant": "an exact characterisation over all histories and rational scales", "anchors": ["kernel/add.py:FSUAdd.forward"]}
{"id": "C68", "title": "FSULinear with any scale emits the longest climb", "statement": "For any positive scale and rate coded weights, per batch row and output, while the accumulator does not saturate, the ones emitted by FSULinear are the longest climb of the level (sum of the product stream counts and the bias minus offsets), and scale times the ones is within the accumulator limit of the level.", "quantifier": "every layer, batch and history", "why_tests_cant": "an exact characterisation over all histories and scales", "anchors": ["kernel/linear.py:FSULinear.forward"]}
{"id": "C69", "title": "Configuration names and constructor checks of the stream generators", "statement": "RNG accepts exactly the eight documented names in any letter case, two names each selecting the Sobol, the ascending and the descending sequence, and raises AssertionError for every other string; mode names likewise. BSGen accepts exactly sequences whose length is a power of two; RawScale exactly quantiles in (0,1].", "quantifier": "every string, sequence and quantile", "why_tests_cant": "all strings; tests try a handful of names", "anchors": ["stream/gen.py:RNG", "stream/gen.py:BSGen", "stream/gen.py:RawScale"]}
{"id": "C70", "title": "Constructor checks of kernels, layers and metrics", "statement": "For FSUAdd, FSUHardsigmoid, FSUMul, CORDIV_kernel, FSUDiv, FSUSqrt, ProgError and the HUB/FXP/TLUT linear and convolution layers: exactly which arguments are accepted, which exception the first failing check raises, and what the object keeps (mode, RNG width, given weights and bias as they are). FSUSqrt demands powers of two, also for the unused entry_kn, and ignores the RNG name when no RNG is built; HUB layers raise TypeError for cycle=None; FXP layers accept any rounding name and quantile.", "quantifier": "every argument list", "why_tests_cant": "all strings, sizes and combinations of failing checks", "anchors": ["kernel/add.py:FSUAdd.__init__", "kernel/mul.py:FSUMul.__init__", "kernel/div.py:FSUDiv.__init__", "kernel/sqrt.py:FSUSqrt.__init__", "kernel/linear.py:HUBLinear.__init__", "kernel/conv.py:HUBConv2d.__init__", "kernel/linear.py:FXPLinear.__init__", "kernel/linear.py:TLUTLinear.__init__", "metric/metric.py:ProgError.__init__"]}
{"id": "C71", "title": "Metrics on tensors: broadcasting, refusals and lanes", "statement": "After any calls, Correlation.Monitor succeeds exactly when its operands broadcast to one element of at most one dimension; otherwise RuntimeError, no counter moves, but a one-argument call has already replaced the remembered input. ProgError ignores (RuntimeError) inputs that do not broadcast against its counter, and each element of pp and pe is the one-lane metric of the inputs taken. Stability is the one-lane metric per element while the counter expands to the shape of source; afterwards, and always for a 0-d source, every call raises and the settling time is frozen while the cycle goes on.", "quantifier": "every sequence of calls with tensors of any shape", "why_tests_cant": "all shapes and orders of shapes; failing calls that leave partial updates", "anchors": ["metric/metric.py:Correlation.Monitor", "metric/metric.py:Correlation.forward", "metric/metric.py:ProgError.Monitor", "metric/metric.py:ProgError.forward", "metric/metric.py:Stability.Monitor", "metric/metric.py:Stability.forward"]}
{"id": "C72", "title": "The binary-interfaced linear layers against the real affine layer", "statement": "With quantile 1: HUBLinear, from constructor to output, differs from x.W^T + b by at most a stated bound in its shifts, cycle limit and rounding; with rounding 'ceil' and no early termination the bound is n*4(w+2)/2^w times the largest input and weight, so it vanishes with the width. With the default 'round' it does not: 1.4*1.4 gives less than 1 at every width. FXPLinear converges with every rounding, TLUTLinear with 'ceil' or with two floating-point formats, and clips 1.4*1.4 to less than 1 with 'round'. HUBLinear has an output exactly when neither operand is all zero.", "quantifier": "every layer, batch, width and value; every width for the clipped product", "why_tests_cant": "an error bound over all real data and widths, and a failure at every width", "anchors": ["kernel/linear.py:HUBLinear.forward", "kernel/linear.py:FXPLinear.forward", "kernel/linear.py:TLUTLinear.forward", "kernel/utils.py:rshift_offset"]}
{"id": "C73", "title": "Shift register, divider and square root on tensors", "statement": "On inputs of one shape, ShiftReg (with or without mask, any read position), CORDIV_kernel, FSUDiv and FSUSqrt behave at every position as the one-lane kernel on the stream at that position, or raise what every lane raises; outputs have the shape of the input. CORDIV_kernel never returns on operands of different shapes. ShiftReg fixes its shape at the first call and later takes exactly the inputs that expand to it. FSUSqrt in emit mode on 0-d inputs is the identity, because its feedback bit is reset at every call.", "quantifier": "every shape, history, register size, sequence and mode", "why_tests_cant": "all shapes and histories; a shape that silently disables the feedback", "anchors": ["kernel/shiftreg.py:ShiftReg.forward", "kernel/div.py:CORDIV_kernel.forward", "kernel/div.py:FSUDiv.forward", "kernel/sqrt.py:FSUSqrt.forward"]}
{"id": "C74", "title": "Reports of utils: what progerror_report and tensor_unary_outlier show", "statement": "progerror_report(report_value=True) always raises AttributeError before printing anything, because ProgError has no attribute in_value. Otherwise it prints one line with the extremes, standard deviation (nan for one element), mean and root mean square of value minus source over all elements, and on request the same of the relative error; one element whose stream is 0 beside a non-zero source turns that line into the largest float and an infinite root mean square, and before any monitoring the relative errors are shown as 0 while the absolute ones are nan. tensor_unary_outlier shows the percentage of elements outside [-1,1], 0 iff all are inside and 100 iff none is.", "quantifier": "every object state, source, stream and tensor", "why_tests_cant": "all data; a keyword argument that can never work", "anchors": ["kernel/utils.py:progerror_report", "kernel/utils.py:tensor_unary_outlier", "metric/metric.py:ProgError"]}
{"id": "C75", "title": "The binary-interfaced convolutions against the real convolution", "statement": "With quantile 1, any stride, dilation and padding: HUBConv2d, from constructor to output, differs from the real convolution plus bias by at most a stated bound in its shifts, cycle limit and rounding; with rounding 'ceil' and no early termination the bound is (number of taps)*4(w+2)/2^w times the largest pixel and the largest weight. With the default 'round' one pixel and one tap of 1.4 give less than 1 at every width. FXPConv2d converges with every rounding; TLUTConv2d with 'ceil' or with two floating-point formats, relative to the largest pixel under a tap, and clips 1.4*1.4 to less than 1 with 'round'. With an all-zero operand HUBConv2d has no finite output.", "quantifier": "every geometry, batch, width and value; every width for the clipped product", "why_tests_cant": "an error bound over all real images and geometries, and a failure at every width", "anchors": ["kernel/conv.py:HUBConv2d.forward", "kernel/conv.py:FXPConv2d.forward", "kernel/conv.py:TLUTConv2d.forward", "kernel/utils.py:rshift_offset"]}
{"id": "C76", "title": "Progressive precision: the error after any number of cycles, from the encoder through a whole layer", "statement": "Driven by Sobol sequences of w bits, at every cycle t of a run of any length: BSGen is worth its source within half a grid step plus w bits of t; the static FSUMul is worth the product of the real sources within a grid step plus 2w (unipolar) or 3w (bipolar) bits of t, even when both operands use the same sequence; FSULinear and FSUConv2d (any stride, dilation, padding), as constructed with the default scale, are worth the real average within a grid step plus one more bit of t, independently of the number of inputs. Hence Stability counts a last unstable cycle bounded by those bits over (threshold minus grid), whatever the run length. With temporal coding ('race') nothing of this holds: until the ones are over the value is 1 whatever is encoded.", "quantifier": "every mode, width, dimension, direction vectors, source, weight, geometry and cycle", "why_tests_cant": "a bound at every cycle of unbounded runs, over all real operands and layer sizes", "anchors": ["stream/gen.py:BSGen.forward", "kernel/mul.py:FSUMul.FSUMul_forward", "kernel/linear.py:FSULinear.forward", "kernel/conv.py:FSUConv2d.forward", "metric/metric.py:Stability.Monitor"]}
{"id": "C77", "title": "Layers in a row and layers used again: no reset is needed between inferences", "statement": "An FSULinear (default scale, Sobol weights, accumulator deep enough) fed with any streams that progress towards x - within q plus K bits at every cycle - emits streams that progress towards the real average, within q plus half a grid step and K plus w (unipolar) or 2w (bipolar) plus 1 bits. If the layer has been used before, by whatever bits and for however long, and is not reset, the same holds of what it emits from then on with 2w or 4w. Hence a network of any number of such layers, called in turn at every cycle, is within (layers+1)/2 grid steps plus w + layers*(4w+1) bits of the real network at every cycle of every inference.", "quantifier": "every number, size and parameters of layers, batch, earlier history, input streams and cycle", "why_tests_cant": "unbounded depth, history and run length; the state that earlier inferences leave behind is arbitrary", "anchors": ["kernel/linear.py:FSULinear.forward", "kernel/linear.py:FSULinearPC.forward", "kernel/add.py:FSUAdd.forward"]}
{"id": "C78", "title": "float32: which layer outputs are exact whatever the order of summation", "statement": "Evaluated in float32 with every operation rounded, in any order, grouping and fusion of the additions: the bit products of FSULinearPC and FSUConv2dPC are exact up to 2^24 inputs; an output of HUBLinear or HUBConv2d, from the constructor, is the exact one rounded once by the bias addition when inputs*2^(width-1) <= 2^24; likewise FXPLinear when inputs*(max_abs_i-1)*(max_abs_w-1) <= 2^24. At max_abs 256 that allows 258 inputs; with 259 there are operands whose exact output no order of summation gives. BinGen gives the exact integer for every unipolar float32 source and every bipolar multiple of 2^-23; other bipolar sources are worth at most 2^-24 more of error and, up to width 23, at most one integer more or less, which does happen.", "quantifier": "every table, shift, float32 operand, number of inputs within the bound and order of summation", "why_tests_cant": "all operands and all summation orders a library may choose; a test sees one library", "anchors": ["kernel/linear.py:HUBLinearFunction.forward", "kernel/linear.py:FXPLinearFunction.forward", "kernel/linear.py:FSULinearPC.forward", "stream/gen.py:BinGen.__init__"]}
{"id": "C79", "title": "Whole unary networks: convolutions, linear layers, FSUReLU, FSUHardsigmoid, FSUHardtanh and flatten in any order", "statement": "Call a stream tracking v within (q, K) if at every cycle it is off, by at most K bits, some value within q of v. FSUReLU of depth d+1 turns a bipolar stream tracking v within (q, K) into one tracking max(v, 0) within (q, 2K+1/2), or (q, max(3K+1, 2^(d-1))) if it was used before and not reset, provided 4K < 2^d; with a shallower counter a stream of value 0 that comes in runs gives 1/3 for ever. FSUHardsigmoid (depth at least 4) gives (v+1)/2 within (q/2, K/2+1). FSULinear and FSUConv2d (default scale, Sobol weights, any stride, dilation, zero padding) add half a grid step to q and w or 2w plus 1 (twice that if used) to K; FSUHardtanh and flatten add nothing. Hence any sequence of such modules whose shapes fit raises nothing and at every cycle of every inference is worth the real network within the composed q plus the composed K bits of the cycle, without any reset.", "quantifier": "every sequence of modules, sizes, parameters, batch, earlier history, input streams and cycle", "why_tests_cant": "unbounded depth, history and run length; activations are state machines whose error depends on how the stream strays, not only on its value", "anchors": ["kernel/relu.py:FSUReLU.forward", "kernel/sigmoid.py:FSUHardsigmoid.forward", "kernel/tanh.py:FSUHardtanh.forward", "kernel/conv.py:FSUConv2d.forward", "kernel/linear.py:FSULinear.forward"]}
{"id": "C80", "title": "Element types: how deep a counter may be before its dtype breaks it", "statement": "For every torch dtype: FSUReLU gives, on every stream, what an unbounded counter gives if and only if its depth is at most b-2 in a signed b-bit type, b-1 in an unsigned one, p in a float type of p significant bits. One more and an int8 or int16 counter wraps, after which the next 2^(depth-1) output bits are ones whatever comes in; in a float type deeper counters stick, and the module passes negative streams unchanged. FSUSignAbs and SkewedSync need moreover a depth of at most 24, whatever the type, because their bounds pass through float32, and a stream type in which -1 survives the conversion to the counter's type: with uint8 streams and a wider counter FSUSignAbs never sees a sign and SkewedSync adds ones. Bi2Uni in a float type remembers at most 2^p; Uni2Bi is always exact.", "quantifier": "every pair of dtypes, depth and stream", "why_tests_cant": "an exact characterisation over all dtypes, depths and streams; the smallest failing stream can be 2^depth bits long", "anchors": ["kernel/relu.py:FSUReLU.forward", "kernel/signabs.py:FSUSignAbs.forward", "stream/shuffle.py:SkewedSync.forward", "stream/shuffle.py:Bi2Uni.forward", "stream/shuffle.py:Uni2Bi.forward"]}
{"id": "C81", "title": "Element types: generators, parallel counters and adders", "statement": "For every torch dtype: BinGen, RNG and BSGen encode every source exactly if and only if the width is at most b-2, b-1 or p of their rtype; one more and full scale becomes a stream of zeros (signed) or different values share a stream (float). FSULinearPC and FSUConv2dPC give exact counts whenever inputs plus bias are at most the largest n such that the stype holds all of 0..n, and full-scale operands reach any larger count, which is then converted (128 inputs in int8 count -128). The scaled FSUAdd is exact on every history of columns if and only if a float btype has 2^p at least the number of entries; integer btypes have no limit.", "quantifier": "every dtype, width, sequence, source, layer, geometry and history", "why_tests_cant": "an exact characterisation over all dtypes, sizes and histories", "anchors": ["stream/gen.py:BinGen.forward", "stream/gen.py:RNG", "stream/gen.py:BSGen.forward", "kernel/linear.py:FSULinearPC.forward", "kernel/conv.py:FSUConv2dPC.forward", "kernel/add.py:FSUAdd.forward"]}
{"id": "C82", "title": "Saturation: adders and layers of any scale are worth the clipped sum over every stretch of cycles", "statement": "Call a stream steady at v within (q, K) if over every stretch of cycles, wherever it starts and however long it is, its value is within q plus K bits of v. A Sobol bit stream generator is steady at its source within half a grid step and 2w bits from any cycle on. FSUAdd with any scale s > 0 and any number of entries, fed with streams steady at v_i within (q_i, K_i), emits a stream steady at the sum of the v_i divided by s and clipped to [0, 1] or [-1, 1], within (sum q_i / s, 2 sum K_i / s + 1), plus what its accumulator may hold, 2^(depth-2)/s, if it was used before and not reset; the accumulator must be deeper than sum K_i + 2s. FSULinear and FSUConv2d with any scale (Sobol weights, any geometry with zero padding, any batch) likewise compute the affine map divided by the scale and clipped.", "quantifier": "every scale, number of entries, size, geometry, parameters, batch, earlier history, input streams and stretch", "why_tests_cant": "unbounded history and run length; a saturating accumulator forgets, so its error depends on how its inputs stray and in which order", "anchors": ["kernel/add.py:FSUAdd.forward", "kernel/linear.py:FSULinear.forward", "kernel/conv.py:FSUConv2d.forward", "stream/gen.py:BSGen.forward"]}
{"id": "C83", "title": "In-stream multiplication: the product of two streams, after any history", "statement": "FSUMul without a static operand and with a Sobol sequence of width w, after any bits, fed with streams steady at v0 within (q0, K0) and at v1 within (q1, K1), emits a stream steady at v0*v1 within (q0 + q1 + span*K1/2^w, K0 + slack + 2^w), where span is 1 or 2 and slack 2w or 4w bits: the second operand is counted over the last 2^w cycles, and until 2^w new bits have come the count is still about the old ones.", "quantifier": "every mode, width, dimension, direction vectors, earlier history, pair of streams and stretch", "why_tests_cant": "two streams that drive each other's sampling over unbounded runs; the index into the sequence depends on the first operand", "anchors": ["kernel/mul.py:FSUMul.FSUMul_forward", "kernel/shiftreg.py:ShiftReg.forward"]}
{"id": "C84", "title": "The unary gated unit computes the real gated unit, within an explicit bound", "statement": "FSUMGUCell from its constructor (Sobol, weights, biases and state in [-1, 1]), fed with input and state streams steady within (q, K): the streams of the forget gate, of the gated state, of the new gate, of the product of the gates and of the result are steady at the values of HardMGUCell, within bounds given in closed form by the number of entries, the two widths, q and K, provided the accumulators are deep enough for them. Hence HUBMGUCell differs from HardMGUCell by at most that rate plus that number of bits in 2^width cycles: less than 1/50 for one input and one hidden unit with 30 bit operands and a 20 bit window. (At the default widths the bound exceeds the range and says nothing.)", "quantifier": "every size, batch, parameters, input, state, widths, depth and direction vectors within the hypotheses", "why_tests_cant": "seven stateful modules that feed each other over 2^width cycles, for all real parameters and operands", "anchors": ["kernel/rnn.py:FSUMGUCell.forward", "kernel/rnn.py:HUBMGUCell.forward", "kernel/rnn.py:HardMGUCell.forward"]}
{"id": "C85", "title": "Recurrent cells over a sequence: how errors and differences of states travel", "statement": "HardMGUCell, hx = cell(x, hx), on the same inputs in any values from two states in [-1, 1] that differ by at most d: after t calls they differ by at most L^t d, where L = max(1, an(1 + af/2)) + af and af, an bound the absolute sums of the state columns of a row of weight_f and weight_n; factor 1 is not enough. HUBMGUCell over a sequence (parameters and inputs in [-1, 1], depth as in C84): every call succeeds and after t calls it is within e(1 + L + ... + L^(t-1)) of HardMGUCell, where e is the error of one call (C84). HardMGUCellFXP with intwidth at least 1, parameters within the format and inputs and state in [-1, 1]: one call is within fxp_cell(half a step, operands, row sums) of HardMGUCell, and t calls within that times 1 + L + ... + L^(t-1).", "quantifier": "every size, batch, parameters, initial state, sequence of inputs of any length, format, widths and depth within the hypotheses", "why_tests_cant": "unbounded sequences and all real parameters; the bounds hold for the worst case, which no set of samples exhibits", "anchors": ["kernel/rnn.py:HardMGUCell.forward", "kernel/rnn.py:HardMGUCellFXP.forward", "kernel/rnn.py:HUBMGUCell.forward", "kernel/utils.py:Round"]}
{"id": "C86", "title": "RTL feedback counters: dividers and square roots balance their defining equation", "statement": "GDIV_U (hw/kernel/div) after any history, over any further stretch of clocks: the ones of quotient AND divisor and the ones of the dividend differ by at most 2^DEP-1, plus, in one direction, the ones of the dividend that came without a one of the divisor or with the largest random number (with that number 1/1 stays 0 for ever). GDIV_B, with random numbers below the largest: the sum of dividend*divisor and the sum of divisor*previous divisor*quotient (as +1/-1) differ by at most 2(2^DEP-1) plus twice the number of changes of the divisor. GSQRT_U, DEP at least 2, without the two largest random numbers: the ones of out AND out one clock earlier and the ones of the input differ by at most 2^DEP-1 (with the largest number the root of 1 stays 0 for ever). GSQRT_B: the same with XNOR, where only zeros of the input that meet two zeros of the output can be lost.", "quantifier": "every counter width, history, stretch of clocks and random numbers within the hypotheses", "why_tests_cant": "unbounded runs of a saturating counter in a feedback loop with arbitrary random numbers", "anchors": ["hw/kernel/div/GDIV_U.sv", "hw/kernel/div/GDIV_B.sv", "hw/kernel/sqrt/GSQRT_U.sv", "hw/kernel/sqrt/GSQRT_B.sv"]}
{"id": "C87", "title": "RTL multipliers in hw/kernel/old: what they count instead of the product", "statement": "gMUL compares both operands with the same Sobol number: for any loads the unipolar output is [random < min(A,B)], so each period of 2^w clocks counts min(A,B), not A*B/2^w (1/2*1/2 = 1/2 at every width), and the bipolar one counts 2^w-|A-B| (0*0 = 1). dMUL holds the second number at its first value for the first 2^w-1 periods after reset: of B only whether it is 0 matters, so K periods count K*A. tMUL_uni, loaded with A and B while idle and whatever it multiplied before: two idle clocks, A clocks comparing B with the next A numbers, then idle with stop high; after reset the count is within w of A*B/2^w. tMUL_bi gives the same comparisons, but its idle clocks repeat one frozen comparison: -1*0 comes out as -1 for ever.", "quantifier": "every width, pair of operands, period, load history and number of earlier multiplications", "why_tests_cant": "exact laws for all widths, operands and histories; one period is 2^w clocks", "anchors": ["hw/kernel/old/gMUL_uni/gMUL_uni.sv", "hw/kernel/old/gMUL_bi/gMUL_bi.sv", "hw/kernel/old/dMUL_uni/dMUL_uni.sv", "hw/kernel/old/dMUL_bi/dMUL_bi.sv", "hw/kernel/old/tMUL_uni/tMUL_uni.sv", "hw/kernel/old/tMUL_bi/tMUL_bi.sv"]}
{"id": "C88", "title": "RTL non-scaled adders against FSUAdd with scale 1", "statement": "uNSADD8/16 without offset (the copy in MAC16/uMAC_uni_nonscaled) emit exactly what FSUAdd(unipolar, scale 1) emits, one clock later, on every history with fewer than 512 ones; the 512th wraps the register and sixteen streams of ones then fall to 0. uNSADD16 with its offset 15 against FSUAdd(bipolar, scale 1): on every history whose surplus 2*ones-15t stays in 0..1022 it has emitted the same number of ones or one more, one clock later; a negative surplus wraps, so sixteen streams of zeros (sum -16) come out as ones. uNSADD8 has the offset of sixteen inputs: eight streams of ones (sum 8) come out as 0,1,0,1,... while FSUAdd emits only ones.", "quantifier": "every history of columns within the range of the registers, every accumulator depth at least 11", "why_tests_cant": "an equivalence over unbounded sets of histories; the registers wrap only after hundreds of clocks", "anchors": ["hw/kernel/old/uNSADD/uNSADD8.sv", "hw/kernel/old/uNSADD/uNSADD16.sv", "hw/kernel/old/MAC16/uMAC_uni_nonscaled/uNSADD16.sv", "kernel/add.py:FSUAdd.forward"]}
{"id": "C89", "title": "RTL counters that do not count what their modules are for", "statement": "CORDIV_kernel_IS_U feeds its kernel with the up/down counts of its inputs modulo 2^BW, compared unsigned with the random number, so 0/1 is 1 whenever the divisor is sampled. CORDIV_kernel_IS_B: with c the count read as a signed number, its sign bit is set for c >= 0 and its magnitude is 2^BW-|c| (0 for 0). The old relu never counts down: it passes the input except for its ones number 2^(DEPTH-1) to 2^DEPTH-1, so a stream with fewer ones passes unchanged however negative it is. The old sqrt never counts down: it emits a one for every random number up to 32 whatever the input, and the root of 0 is 33/64. SkewedSyncInt releases the running total of in0 on every one of in1 instead of what is left: an input of 1 and n ones give n. BISQRT_S_IS_U with one register emits input bits and ors of two neighbours (the root of an alternating 1/2 is 1/2); BISQRT_S_IS_B with one register emits the input or the or of input and Bi2Uni; with any number of registers both emit the input except where the quotient is 1, and the quotient is 0 on odd clocks and on even clocks 1 or a selected earlier quotient. ISCBDIV_B is the composition of Abs, Bi2Uni, ISCBDIV_U and Uni2Bi.", "quantifier": "every width, history of inputs and random numbers within the hypotheses", "why_tests_cant": "exact laws over unbounded histories; several defects need 2^DEPTH clocks to show", "anchors": ["hw/kernel/div/CORDIV_kernel_IS_U.sv", "hw/kernel/div/CORDIV_kernel_IS_B.sv", "hw/kernel/div/ISCBDIV_B.sv", "hw/kernel/old/relu/relu.sv", "hw/kernel/old/sqrt/sqrt.sv", "hw/kernel/sqrt/BISQRT_S_IS_U.sv", "hw/kernel/sqrt/BISQRT_S_IS_B.sv", "hw/stream/shuffle_int/SkewedSyncInt.sv"]}
{"id": "C90", "title": "RTL Halton sequences: radical inverses, stratified at every scale", "statement": "HaltonSeq2 of any width n emits on clock k the n lowest bits of k reversed; HaltonSeq3 (five digits, 8 bits) and HaltonSeq5 (three digits, 7 bits), and the same circuit in any base b with any number n of digits that fits its register, emit one clock later the n lowest base-b digits of k reversed, without truncation. For every j up to n, every aligned block of b^j values hits each of the b^j intervals of length b^(n-j) exactly once; in particular each period lists every value once.", "quantifier": "every base, number of digits, clock and block", "why_tests_cant": "for all clocks, bases and digit counts", "anchors": ["hw/stream/old/HaltonSeq2/HaltonSeq2.sv", "hw/stream/old/HaltonSeq3/HaltonSeq3.sv", "hw/stream/old/HaltonSeq5/HaltonSeq5.sv"]}
{"id": "C91", "title": "Modules keep their registers to themselves: nothing the caller does to its tensors reaches them", "statement": "Tensors are references: t.data = u shares storage, methods with a trailing underscore write into it, t[i] is a view, t.type(d) is t itself when the dtype agrees. For Bi2Uni, Uni2Bi, FSUSignAbs, FSUReLU, ShiftReg, static FSUMul, FSUAdd and Correlation, for any caller that before, between and after the calls creates tensors, overwrites, repoints and takes views of whatever it holds (inputs, the tensor the module was built from, earlier results) and passes any of it to any call: (1) every call answers as the module over values does on the contents passed, (2) no call changes the content of anything the caller holds, (3) every result has storage of its own. JKFF: the same unless stype is int8; with int8 it returns its register itself, all three fail. SkewedSync: (1) and (2), but its second result is its second input. ProgError: (1), but it returns its Parameters, so every kept answer turns into the latest one.", "quantifier": "every configuration, dtype, script of caller actions and calls of any length", "why_tests_cant": "the scripts are unbounded and tests neither overwrite inputs between calls nor keep earlier results", "anchors": ["stream/shuffle.py:Bi2Uni.forward", "stream/shuffle.py:Uni2Bi.forward", "stream/shuffle.py:SkewedSync.forward", "kernel/signabs.py:FSUSignAbs.forward", "kernel/relu.py:FSUReLU.forward", "kernel/jkff.py:JKFF.forward", "kernel/shiftreg.py:ShiftReg.forward", "kernel/mul.py:FSUMul.forward", "kernel/add.py:FSUAdd.forward", "metric/metric.py:Correlation", "metric/metric.py:ProgError.forward"]}
{"id": "C92", "title": "Layers built from the caller's weights: copies in the FSU layers, shared storage in the others", "statement": "FSULinear and FSUConv2d quantise weight_ext into storage of their own: for every script of the caller, which may overwrite the tensor it passed, and with calls of the weight clipper on the layer in between, the layer computes with the weights it was built with (clipped by the clipper calls) and changes nothing of the caller's. HUB, FXP and TLUT linear and convolution layers share the storage of weight_ext: as long as the caller does not repoint that tensor, every forward works with what the tensor holds at that time and changes nothing, and clipping the layer does to all tensors of the caller exactly what writing the clipped weights into weight_ext would do, so of two layers built from one tensor clipping one clips the other. Such a layer therefore neither keeps the weights it was built with nor leaves the caller's tensor alone.", "quantifier": "every forward function, clipper setting, script of caller actions and calls of any length", "why_tests_cant": "aliasing shows only in scripts that write after construction; all scripts are covered", "anchors": ["kernel/linear.py:FSULinearPC.__init__", "kernel/conv.py:FSUConv2dPC.__init__", "kernel/linear.py:HUBLinear.__init__", "kernel/linear.py:FXPLinear.__init__", "kernel/linear.py:TLUTLinear.__init__", "kernel/conv.py:HUBConv2d.__init__", "kernel/conv.py:FXPConv2d.__init__", "kernel/conv.py:TLUTConv2d.__init__", "kernel/utils.py:NN_SC_Weight_Clipper"]}
{"id": "C93", "title": "RTL feedback square roots: a root that cannot drift from four entries on, and one that wraps with the default three", "statement": "BISQRT_O_U and BISQRT_O_B add the input bit and a fed-back bit and emit: the fed-back bit is the output (in the bipolar module the output through Bi2Uni) AND the complement of one of the last DEP outputs chosen by randNum. For every DEP and history, the output on clock t is one iff what has been added less what has been emitted is 1..2^(DEP-1)-1 modulo 2^DEP. For DEP at least 4 and randNum below DEP the counter never wraps for any input and any numbers: the difference stays within 0..DEP+1 (DEP+2 bipolar), the output is one exactly when it is positive, and over any stretch past the first DEP clocks the ones of the input and the ones of output AND selected earlier output differ by at most DEP+1. With the default DEP = 3 it wraps: there are numbers for which an input of ones yields 3 ones of every 8 for ever. The module assigns only DEP of the DEP_SR entries: if randNum reads an entry it never assigned that happens to hold one, an input of ones yields fewer than half ones, for every DEP.", "quantifier": "every DEP, history of inputs, random numbers and unassigned bits", "why_tests_cant": "bounds over unbounded histories and all random numbers; the counter wraps only on particular sequences of numbers", "anchors": ["hw/kernel/sqrt/BISQRT_O_U.sv", "hw/kernel/sqrt/BISQRT_O_B.sv"]}
{"id": "C94", "title": "RTL gain multiply-accumulate units: one shared number, so a minimum and not a product", "statement": "In gainMAC_uni_scaled, gainMAC_bi_scaled and gainMAC_uni_nonscaled all sixteen lanes compare both operands with the same eight-bit Sobol number v, and the lane that the selector picks is a function of that v. For every sequence of loads and clocks: the scaled units emit (one clock later) the bit of lane lane_of(v), v < min(A,B) or (v < A) == (v < B); the non-scaled one emits v < max over the lanes of min(A,B). Over any period of 256 clocks with steady operands the non-scaled unit counts exactly that maximum, the scaled unipolar one counts a sixteenth of the sum of the minima up to 57 (16*ones - sum within +-912, attained on both sides in every later period), and exactly the common minimum if it is the same in all lanes. So they compute no products: halves in all lanes give a half, 16/256 in lane 0 alone counts 8 instead of 1.", "quantifier": "every history of loads, every operand in 0..256, every period", "why_tests_cant": "16 lanes of two operands and the time of every load are too many to enumerate; the bound is over all of them", "anchors": ["hw/kernel/old/MAC16/gainMAC_uni_scaled", "hw/kernel/old/MAC16/gainMAC_bi_scaled", "hw/kernel/old/MAC16/gainMAC_uni_nonscaled"]}
{"id": "C95", "title": "RTL dMAC units: a second generator that stands still for 65280 of 65536 clocks", "statement": "In dMAC_uni_scaled, dMAC_bi_scaled and dMAC_uni_nonscaled the second generator and the lane selector are enabled by the upper counter being full (&cntB), not by the lower one. For every sequence of loads and every clock the output bit is given by the number of steps slow(t) the second generator has made. Consequently, in every period of 256 clocks except each 256th, with steady operands: the scaled units look at lane 0 only and count its iA in full if its iB is above 0 (above 129 in odd blocks of 256 periods) and 0 (bipolar: 256 - iA) otherwise; the non-scaled unit counts the largest iA among the lanes whose iB passes that test. So for any values of the other fifteen lanes and any iB in 1..255 of lane 0 the unit counts iA of lane 0: it does not compute the product or the sum.", "quantifier": "every history of loads, every operand, every period", "why_tests_cant": "one round takes 65536 clocks; the statements are for all clocks", "anchors": ["hw/kernel/old/MAC16/dMAC_uni_scaled", "hw/kernel/old/MAC16/dMAC_bi_scaled", "hw/kernel/old/MAC16/dMAC_uni_nonscaled"]}
{"id": "C96", "title": "RTL uMAC units against FSULinear: bipolar scaled bit for bit, non-scaled up to the width of the register", "statement": "For any weights and inputs in which no stream has more than 2^w ones (bipolar: or zeros): uMAC_bi_scaled emits bit for bit what the bipolar FSULinear with 16 inputs, one output, no bias and default scale emits; uMAC_uni_nonscaled emits one clock later what the unipolar FSULinear with scale 1 emits, as long as at most 511 product bits have been one; uMAC_bi_nonscaled has, one clock later, emitted as many ones as the bipolar FSULinear with scale 1 or one more, while the surplus stays within its register. From reset with a load on the first clock the adders receive the FSUMul products on every clock but the first, on which the unipolar units receive zeros and the bipolar ones the complement of the inputs. Beyond those ranges the registers wrap: full weights and inputs of ones make the unipolar unit emit 0 on clock 33, weights of -1 and inputs of ones make the bipolar one emit ones where the layer emits -1 for ever.", "quantifier": "every width up to 30, weights, depth and input history within the stated ranges", "why_tests_cant": "equality of whole histories for all weights and inputs", "anchors": ["hw/kernel/old/MAC16/uMAC_bi_scaled/uMAC_bi_scaled.sv", "hw/kernel/old/MAC16/uMAC_uni_nonscaled/uMAC_uni_nonscaled.sv", "hw/kernel/old/MAC16/uMAC_bi_nonscaled/uMAC_bi_nonscaled.sv", "kernel/linear.py:FSULinear.forward"]}
{"id": "C97", "title": "Square root by emission squares only streams that are not in step with its register", "statement": "Unipolar FSUSqrt with emit on: in every prefix the number of cycles in which the output and the output entry_sr cycles earlier are both 1 equals the ones of the input up to a constant (from -1 to entry_sr+1+ceil(entry_sr/2)), so the output squares to the input when it is uncorrelated with its delayed self. If the input repeats after entry_sr cycles, then in both modes no input one is dropped and at most entry_sr+entry_sr/2 zeros are ever raised, however long the run: the output has the input's value and not its square root. With entry_sr = 2^(j+1) these include what BSGen generates from the first Sobol dimension for all multiples of 2^(width-j). In particular the alternating stream of value 1/2 gives an output whose square stays below 1/3 for every even entry_sr up to 254.", "quantifier": "every entry_sr up to 255, every stream, every prefix; every width up to 30, every length of run", "why_tests_cant": "bounds that hold for runs of any length and all streams; tests look at an average over random values", "anchors": ["kernel/sqrt.py:FSUSqrt.forward", "kernel/sqrt.py:FSUSqrt.unipolar_emit", "kernel/sqrt.py:FSUSqrt.bipolar_emit", "stream/gen.py:BSGen.forward"]}
{"id": "C98", "title": "What division emits while the divisor is zero, and why the value of its output need not be the quotient", "statement": "In unipolar FSUDiv with 2^w entries and a sequence that lists every index once: in every stretch of L cycles without a divisor one, with K ones among the last 2^w quotient bits emitted at divisor ones, 2^w times the ones emitted in the stretch is L*K up to K*(2^w-K), and exactly L*K if L is a multiple of 2^w, wherever the stretch starts. In short stretches the error does not average out: with four entries and any Sobol dimension, divisor 1100 and dividend 1000 repeated give an output of value 1/4 (p+1 ones in 4p cycles, for every p) although the dividend has exactly half the ones of the divisor and none outside them.", "quantifier": "every depth, width, sequence, pair of streams, stretch; every number of repetitions", "why_tests_cant": "all stretches of all histories at all phases of the sequence", "anchors": ["kernel/div.py:FSUDiv.unipolar_forward", "kernel/div.py:CORDIV_kernel.forward"]}
{"id": "C99", "title": "Which units are monotone, and how far a past can shift the count", "statement": "FSUAdd, in either mode, at any positive scale and any depth, saturated or not: if no column of the first input has more ones than that of the second, the first output has in no prefix more ones than the second, and at most the additional ones of each column divided by the scale and rounded up fewer. Two adders with different histories fed the same from then on: the one with the higher accumulator is never behind and at most (difference/scale, rounded up) ahead, so no history changes the number of ones the same future gives by more than 2^(depth-1)/scale rounded up. While nothing saturates it is enough that the second input has in every prefix at least as many ones; where it saturates that is false: with depth 3 and scale 1 three ones in one cycle give two output ones and three ones in three cycles give three. Unipolar FSULinear with nowhere smaller weights and biases has in no prefix and no lane fewer output ones (any coding, scale, depth); with the default scale the same holds for inputs that are in no prefix behind, and through networks of such layers. FSUReLU, saturated or not: a bit-by-bit higher input is in no prefix behind at the output, nor ahead by more than at the input; that the ones merely come no later is not enough. FSUHardsigmoid: an input in no prefix behind gives an output in no prefix behind and at most half as far ahead, rounded up. Unipolar FSUDiv and its kernel: a bit-by-bit higher dividend gives a bit-by-bit higher quotient under the same divisor; in the divisor it is not monotone.", "quantifier": "every pair of inputs, histories, parameters, shapes and lengths, every prefix", "why_tests_cant": "a relation between two runs for all pairs of inputs", "anchors": ["kernel/add.py:FSUAdd.forward", "kernel/linear.py:FSULinear.forward", "kernel/linear.py:FSULinearPC.forward", "kernel/relu.py:FSUReLU.forward", "kernel/sigmoid.py:FSUHardsigmoid.forward", "kernel/div.py:FSUDiv.unipolar_forward"]}
{"id": "C100", "title": "How far wrong input bits reach: adders, multipliers, rate-coded layers and activations do not amplify them, division does", "statement": "Compare a run with the run in which some input bits are flipped. Streams: the counts of ones differ in every prefix by at most the number of flips. FSUAdd, either mode, any positive scale and depth, saturated or not: the output counts differ in every prefix by at most the sum over the columns of what each column is off by, divided by the scale and rounded up, whatever the signs. Static FSUMul, either mode, any sequence and held number: a product stream is in no prefix further off than the input stream. FSULinear at default scale, rate-coded, deep enough not to saturate, either mode: each output is in every prefix off by at most the sum of what its inputs are off by divided by the number of entries, rounded up; so a network of any number of such layers never amplifies: k at every input gives at most k at every output. FSUReLU at any depth is off by at most the number of flips, FSUHardsigmoid by at most half, rounded up. Unipolar FSUDiv has no bound: for every power-of-two buffer, every sequence that lists each index once and every n there are two histories that differ in one dividend bit whose outputs differ in n+1 ones.", "quantifier": "every pair of inputs, every configuration, network and length, every prefix", "why_tests_cant": "a relation between two runs for all pairs of inputs and fault positions", "anchors": ["kernel/add.py:FSUAdd.forward", "kernel/mul.py:FSUMul.forward", "kernel/linear.py:FSULinear.forward", "kernel/relu.py:FSUReLU.forward", "kernel/sigmoid.py:FSUHardsigmoid.forward", "kernel/div.py:FSUDiv.unipolar_forward"]}
{"id": "C101", "title": "What rearranging and negating inputs does: order and company never matter, bipolar layers are odd up to one bit", "statement": "FSUAdd: reordering the entries, even differently in every cycle, does not change the output; at a fixed scale adding a stream and its complement to a bipolar adder, or zeros to a unipolar one, changes nothing. FSULinear in any mode, coding, scale and depth, saturated or not: permuting inputs together with the columns of the weights and keeping any outputs and any rows of the batch, in any order and number, gives exactly those rows and outputs, so rows and outputs never influence each other; and a network is unchanged when the neurons of its layers are reordered. Bipolar FSUMul, by a held number or by a second stream, is odd bit for bit in its first operand; it is not in the second (a strict comparison). A bipolar rate-coded FSULinear without bias, at default scale and deep enough, is odd up to one bit: the counts of ones on an input and on its negation sum in every prefix to the number of cycles or one less; a network of n such layers is odd up to n bits however long it runs. FSUSignAbs within its range: negation flips the sign and keeps the magnitude bit except where ones and zeros are balanced, where both signs are positive and the bits differ.", "quantifier": "every configuration, permutation, selection, network, history and prefix", "why_tests_cant": "relations between two runs for all inputs and all permutations", "anchors": ["kernel/add.py:FSUAdd.forward", "kernel/linear.py:FSULinear.forward", "kernel/linear.py:FSULinearPC.forward", "kernel/mul.py:FSUMul.forward", "kernel/signabs.py:FSUSignAbs.forward"]}
{"id": "C102", "title": "A convolution sees only windows: crops, shifts, strides, wrong pixels, monotonicity and negation", "statement": "FSUConv2d in any mode, coding, scale and depth, saturated or not: two positions whose taps see the same streams emit the same stream, whatever the batch, image size, stride, dilation and padding around them. Hence the convolution of a part of an image that starts at a multiple of the stride is the part of the convolution of the whole wherever the window lies on the part (moving the image moves the output), and a layer with stride (sy, sx) emits exactly what the same layer with stride 1 emits at the multiples. At default scale, rate-coded, deep enough: if every pixel stream is in every prefix off by at most k(pixel), an output is off by at most the sum of k over the pixels under its window divided by the number of entries, rounded up; pixels outside the window do not reach it. Unipolar layers with nowhere smaller weights and pixels never behind have outputs never behind. Bipolar without bias: the ones on an image and on its negation sum in every prefix to the number of cycles up to one, plus the number of taps over the border divided by the number of entries, rounded up.", "quantifier": "every geometry, batch, image, weight, mode, scale, depth, history and prefix", "why_tests_cant": "relations between runs on different images and with different geometries, for all of them", "anchors": ["kernel/conv.py:FSUConv2d.forward", "kernel/conv.py:FSUConv2dPC.forward", "kernel/conv.py:FSUConv2dPC.FSUConv2d_PC_wrc", "kernel/conv.py:FSUConv2dPC.FSUConv2d_PC_wtc"]}
{"id": "C103", "title": "How far wrong weights reach, with a bound that is attained", "statement": "Compare two runs on the same input whose weights differ. BSGen on a sequence that lists every value once per 2^w entries: two numbers that differ by d give streams whose counts of ones differ by at most d per period begun. Static FSUMul: the products differ in every prefix by at most d per period begun by the ones of the input, and in bipolar mode by its zeros; a unipolar input of ones attains it. FSULinear, either mode, rate-coded, at default scale, deep enough not to saturate, with or without bias: each output is in every prefix off by at most the sum over its inputs of the weight difference times the periods that input has begun, plus the bias difference times the periods of the cycles, divided by the number of entries and rounded up. A network of any number of such layers whose weights and biases are all off by at most k and whose inputs are off by at most j bits is after T cycles off by at most j plus, for every layer, k times ceil(T/2^w) (in bipolar mode k times one more): weight errors add over layers and never multiply.", "quantifier": "every pair of weights and biases, configuration, network, input and prefix", "why_tests_cant": "a relation between runs of different layers for all weights, inputs and depths", "anchors": ["stream/gen.py:BSGen.forward", "kernel/mul.py:FSUMul.forward", "kernel/linear.py:FSULinear.forward", "kernel/linear.py:FSULinearPC.forward"]}
{"id": "C104", "title": "Pauses: which units wait with their input", "statement": "Put any number of idle cycles, in which all inputs are zero, at any places into the input. Static unipolar FSUMul, SkewedSync at any depth (saturated or not), FSUAdd in either mode at its default scale and unipolar at any larger one, deep enough not to saturate, unipolar rate-coded FSULinear without bias at default scale, FSUConv2d likewise and networks of any number of such layers then emit exactly their former output with zeros in the same places; in a batch every row or image may pause at its own times. Not so: bipolar FSUMul (a zero is a number), FSUMul of two streams even if both pause (its register shifts every cycle), a non-scaled FSUAdd (it works off its backlog in the pause), a layer with bias and a layer with temporally coded weights.", "quantifier": "every placement and length of pauses per row, every configuration, network, geometry and input", "why_tests_cant": "a relation between runs of different lengths for all placements of pauses", "anchors": ["kernel/mul.py:FSUMul.forward", "kernel/add.py:FSUAdd.forward", "stream/shuffle.py:SkewedSync.forward", "kernel/linear.py:FSULinear.forward", "kernel/linear.py:FSULinearPC.forward", "kernel/conv.py:FSUConv2d.forward"]}
{"id": "C105", "title": "Temporally coded layers: wrong bits, wrong weights, negation, and how two of them amplify one wrong bit", "statement": "FSULinear with temporally coded weights at default scale, deep enough not to saturate, either mode, with or without bias. Each output is in every prefix off by at most the input bits flipped so far divided by the number of entries, rounded up. With other weights and biases it is off by at most the sum of their differences times the periods begun, divided by the number of entries, rounded up. Bipolar without bias: the ones on an input and on its negation sum in every prefix to the number of cycles or one less. But unlike with rate coding it is not enough that the input counts stay close: for every n there are two inputs whose counts never differ by more than one whose outputs differ in n ones; and for every n there are two inputs of a network of two such layers that differ in a single bit whose outputs differ in n ones.", "quantifier": "every layer, pair of inputs, pair of weights, history and prefix; every n", "why_tests_cant": "relations between two runs for all inputs; unbounded growth over time", "anchors": ["kernel/linear.py:FSULinear.forward", "kernel/linear.py:FSULinearPC.FSULinear_PC_wtc", "stream/gen.py:BSGen.forward"]}
{"id": "C106", "title": "RTL tMAC: what the temporally coded multiply-accumulate units emit, and that they neither scale, saturate nor restart", "statement": "For any inputs and loads. In the lanes of tMAC a load of A and B makes the lane compare B with its generator on exactly A clocks, beginning two clocks after the load; the number of ones is within 1080/256 of AB/256 whatever the clock, and that bound is reached. tMAC_uni_scaled and tMAC_bi_scaled emit, one clock late, the product bit of the lane fixed by the generator's value, so that they do not emit the scaled sum: operands with mean product 56/256 give no one at all. tMAC_uni_nonscaled compares with the generator the number of all product ones since reset up to three clocks before, modulo 256: every whole period after a load has the former ones plus those of the sixteen products modulo 256, which is before the reduction within 16*1080/256 of the sum of products. It does not saturate (sixteen products of 255 and 255 show 224/256), and a second load does not restart the sum (after a load of zeros the first sum stays).", "quantifier": "every sequence of inputs and loads, every clock, every operand", "why_tests_cant": "sequential hardware over unbounded runs, all operands and load times", "anchors": ["hw/kernel/old/MAC16/tMAC_uni_scaled/tMUL_uni.sv", "hw/kernel/old/MAC16/tMAC_uni_scaled/tMAC_uni_scaled.sv", "hw/kernel/old/MAC16/tMAC_bi_scaled/tMAC_bi_scaled.sv", "hw/kernel/old/MAC16/tMAC_uni_nonscaled/tMAC_uni_nonscaled.sv"]}
{"id": "C107", "title": "RTL older adders: what apcADD, muxADD, dADD and orADD emit, when they add exactly, and that they do not in general", "statement": "For any eight-lane inputs. apcADD_rng compares a weight of the previous row with the low three bits of its eight-bit generator; the weight is between one less and three more than the number of ones of the row, both reached, and depends on which lanes have the ones. These three bits stay the same for 32 clocks: under a constant row the output is constant on each such block, and has 32 ones per unit of weight in every aligned 256 clocks. muxADD_rng shows one clock late the lane these bits name, so on 32 clocks in a row it sees one lane only; it adds constant rows exactly over an aligned period, but two inputs with 32 ones in every lane give 256 ones and none. dADD moves its three-bit generator every eight clocks and adds inputs that repeat every eight clocks exactly over 64 clocks, but other inputs with equal counts give 64 ones and none. orADD emits at least the ones of the fullest lane and at most those of all lanes together.", "quantifier": "every sequence of rows of eight bits, every clock and aligned period", "why_tests_cant": "sequential hardware over unbounded runs and all inputs; the truncated port connection shows only over long runs", "anchors": ["hw/kernel/old/apcADD/apcADD.sv", "hw/kernel/old/apcADD/apcADD_rng.sv", "hw/kernel/old/muxADD/muxADD_rng.sv", "hw/kernel/old/dADD/dADD.sv", "hw/kernel/old/orADD/orADD.sv"]}
{"id": "C108", "title": "RTL binary units, Gray code counter, LSZ2 and exp", "statement": "bADD and bMUL give two clocks later the exact sum and product of any two bytes. mac holds, after a product with acc_en 0 followed by any products with acc_en 1 and whatever came before, their sum modulo 2^20, which is exact for sixteen products and not for seventeen. data_buf shows in the same clock what was last written to the read address before this clock, 0 at first. grayCode of 4 or 8 bits emits the Gray code of the clock number: neighbours differ in exactly one bit, also across the wrap-around, and every value comes exactly once per period. LSZ2 gives one more than the position of the lowest zero modulo 8, so that a zero only in bit 7 reads as 0 and no zero at all reads like a zero in bit 0. exp emits, where randBit[2] is 0, randBit[0] or the input, and elsewhere a fixed function of the inputs and random bits of the three clocks before; without input ones it emits randBit[0] and not randBit[2].", "quantifier": "every operand, sequence of operations, address, clock and period", "why_tests_cant": "all operands and unbounded sequences; overflow only at extreme operands", "anchors": ["hw/kernel/old/bADD/bADD.sv", "hw/kernel/old/bMUL/bMUL.sv", "hw/kernel/old/MAC16/bMAC_SIMD/mac.sv", "hw/kernel/old/MAC16/bMAC_SIMD/data_buf.sv", "hw/stream/old/GrayCode/grayCode.sv", "hw/stream/old/SobolSeq2/LSZ2.sv", "hw/kernel/old/exp/exp.sv"]}
{"id": "C109", "title": "Repeating inputs give repeating outputs, and one full period of a network on generated inputs is exact", "statement": "Either mode, sequences that run through all w-bit numbers. A BSGen stream repeats every 2^w cycles and any 2^w cycles in a row are worth exactly the number. From the moment the input of a static FSUMul repeats every P cycles, whatever came before, its output repeats every P 2^w cycles and any such window is worth exactly the product of the value of P input cycles and the weight. For FSULinear at default scale, deep enough not to saturate, the period is P 2^w times the number of entries (the bias counted) and any such window is worth exactly the average of the products and the bias. FSUConv2d does the same in every window, beyond the border counting 0, in bipolar mode if P is even. FSUHardsigmoid of depth at least 4 repeats every 2P cycles and is worth exactly half of the value plus one. If P < 2^d, bipolar FSUReLU of depth d + 1 settles within 2^d + 1 periods into a cycle of at most 2^d + 1 periods whose windows are worth exactly the positive part. Fully connected layers in a row multiply the periods; a fresh network run on generated inputs for exactly that long emits streams worth exactly what the real network gives on the numbers its inputs and parameters encode.", "quantifier": "every mode, width, sequence, weight, period, starting cycle, history before it, layer and network of any depth", "why_tests_cant": "equality of values over windows of any length; periods grow with every layer beyond what can be run", "anchors": ["stream/gen.py:BSGen.forward", "kernel/mul.py:FSUMul.forward", "kernel/linear.py:FSULinear.forward", "kernel/linear.py:FSULinearPC.forward", "kernel/conv.py:FSUConv2d.forward", "kernel/add.py:FSUAdd.forward", "kernel/sigmoid.py:FSUHardsigmoid.forward", "kernel/relu.py:FSUReLU.forward"]}
{"id": "C110", "title": "RTL SobolRNGtwo: two generators on one merged array, which of them emit Sobol sequences, and that a mirrored or Gray-coded index spoils them", "statement": "Any two lists of eight vectors, the i-th of at most i+1 bits, merged into eight nine-bit words come out of SobolRNGtwo as the eight-bit direction vectors of both. For any inputs each output is the exclusive or of all vectors chosen for it so far. The LSZ beside it gives the position of the lowest zero of a byte, 7 if there is none, and its mirror image. Indexed by the lowest zero of a count both outputs are the Sobol sequences of their vectors with period exactly 256. With the mirrored index on the second, as LSZ and SobolRNGnine connect it, the second takes its vectors in the opposite order: with odd vectors every value still comes once in every aligned 256 clocks, but it is not the Sobol sequence, and for the vectors of the first dimension it stays 128 clocks below 128 and then 128 clocks above. With a Gray code in place of the count both show on clock 5 the value of clock 3 again, whatever the vectors.", "quantifier": "every pair of vector lists, every input sequence, clock and period", "why_tests_cant": "all direction vectors and unbounded runs; the mirrored index shows only in the order of the values", "anchors": ["hw/stream/old/Sobol8bit/SobolRNGtwo.sv", "hw/stream/old/Sobol8bit/LSZ.sv"]}

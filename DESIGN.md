# Formal model of UnarySim — design

Everything is in `rocq/theories` (Coq 8.16.1, logical root `Verif`).

## 1. What is modelled and how

UnarySim is a cycle-level simulator of unary (bitstream) arithmetic. Its streaming modules are state
machines: `forward` is called once per cycle. Each module becomes a Gallina function
`*_step : config -> state -> input -> state * output` plus `*_init`; a history of calls is
`run step init inputs` and its outputs `outs step init inputs` (`Base.v`); modules that can raise use `run_r`.
Constructors that may fail and calls that may raise return `result` (`Ok v` / `Err e`), so an exception is a value
and theorems can be stated about it.

* **Numbers.** Bits, counters, indices: `Z`. Real-valued data (sources, scales, weights, HUB/FXP/TLUT data):
  `Q`, exact rationals. Torch's float32 rounding is *not* part of these models except in `Float32Model.v`, which models
  binary32 rounding of rationals, the metric counters and the FSUAdd accumulator in it, and `F32LayerModel.v`. Counters and table entries of the other
  modules are integers below 2^24 on the streams one can afford to run, where float32 is exact; widths above 24 are covered
  by the theorems in exact arithmetic only.
* **Tensors.** Elementwise modules are first modelled for one element ("lane"). `TensorModel.v` models the same modules
  on tensors with shapes and torch's broadcasting, statement by statement, and `TensorProof.v` proves that every lane of
  the tensor machine is the one-lane machine. Layers that mix lanes (linear, convolution, MGU) are modelled on nested lists.
* **Externals.** `torch.randperm`, the samples of `scipy.stats.truncnorm`, `pylfsr` and the Sobol direction-number table are not in
  /repo. They enter as parameters (universally quantified) with the property they are documented to have as an
  explicit hypothesis of the theorem: "a permutation of 0..2^w-1", "every state of a maximal-length register", "admissible direction
  numbers" (`Spec.dirvec_ok`). The Gray-code Sobol recurrence of torch's SobolEngine is modelled for every admissible table.

| file | models |
|---|---|
| `GenModel.v` | `stream/gen.py`: RNG, RNGMulti names, get_lfsr_seq, RawScale, BinGen, BSGen; Sobol recurrence |
| `ShuffleModel.v` | `stream/shuffle.py`: SkewedSync, Bi2Uni, Uni2Bi |
| `AddModel.v` | `kernel/add.py` FSUAdd, `kernel/sigmoid.py`, `kernel/tanh.py`, ScaleReLU of `kernel/relu.py` |
| `KernelModel.v` | `kernel/{shiftreg,jkff,mul,relu,signabs}.py` |
| `DivModel.v` | `kernel/div.py`, `kernel/sqrt.py` |
| `MetricModel.v` | `metric/metric.py`: Correlation, Stability, ProgError |
| `UtilsModel.v` | `kernel/utils.py`: clipper, rounding, shifts, shape helpers, truncated_normal |
| `LinearModel.v` | `kernel/linear.py`: FSULinearPC, FSULinear |
| `HubModel.v` | `kernel/linear.py`: HUBLinear, FXPLinear, the three TLUT functions, all backward functions |
| `ConvModel.v` | `kernel/conv.py`: FSUConv2dPC, FSUConv2d |
| `BinConvModel.v` | `kernel/conv.py`: HUBConv2d, FXPConv2d, TLUTConv2d; construction of TLUTLinear |
| `NewModel.v` | constructors of kernels, metrics and binary-interfaced layers: checks in code order, what is kept |
| `RnnModel.v` | `kernel/rnn.py`: HardMGUCell, HardMGUCellFXP |
| `MguModel.v` | `kernel/rnn.py`: FSUMGUCell, HUBMGUCell |
| `Float32Model.v` | binary32 rounding; the metric counters and FSUAdd in it |
| `F32LayerModel.v` | BinGen and the matrix products of the linear layers in binary32, summed in any order |
| `DtypeModel.v` | the element types of torch (integer, half, bfloat16, float, double) and the counters, generators and sums kept in them |
| `CnnModel.v` | modules on tensors called in sequence, as torch.nn.Sequential does; torch.flatten; tensor forms of FSULinear, FSUConv2d, FSUHardsigmoid |
| `TensorModel.v` | tensors, broadcasting; relu, signabs, jkff, bi2uni, uni2bi, add, skewedsync, mul on tensors |
| `TMetricModel.v` | the three metrics on tensors; a call returns the state and the exception it raised |
| `TDivModel.v` | ShiftReg, CORDIV_kernel, FSUDiv, FSUSqrt on tensors: first-call reshape, roll, slice assignment, view |
| `ReportModel.v` | `kernel/utils.py`: progerror_report, tensor_unary_outlier; a printed line is its label and numbers |
| `AliasModel.v` | tensors as references into storages: `forward` and `__init__` of the modules of C91 and C92 as programs on a heap |
| `RtlModel.v` | SystemVerilog under `hw/`: see C54, C59, C60 |
| `RtlMoreModel.v` | further SystemVerilog modules: see C86 onwards |
| `RtlRootModel.v` | `BISQRT_O_U.sv`, `BISQRT_O_B.sv`; the port lists read as if their commas were there, the register entries never assigned as an unknown input bit |
| `RtlMacModel.v` | `hw/kernel/old/MAC16`: gainMAC_uni_scaled, gainMAC_bi_scaled, gainMAC_uni_nonscaled, dMAC_uni_scaled, dMAC_bi_scaled, dMAC_uni_nonscaled, uMAC_bi_scaled, uMAC_uni_nonscaled, uMAC_bi_nonscaled with their 16-lane muxADD and orADD; ports declared twice read with the wider declaration |
| `RtlTmacModel.v` | `hw/kernel/old/MAC16`: tMAC_uni_scaled, tMAC_bi_scaled, tMAC_uni_nonscaled with their tMUL; the sixteen `stop` outputs of the scaled units, which drive one implicit net, are left out |
| `RtlAddsModel.v` | `hw/kernel/old`: apcADD(_rng), muxADD(_rng), dADD, orADD (eight lanes), bADD, bMUL, bMAC_SIMD (mac, data_buf), exp; `hw/stream/old`: GrayCode and Sobol8bit grayCode, LSZ2. The commented-out sixteen-lane apcADD is left out; non-blocking assignments in `always_comb` are read as combinational; data_buf's row is one number and its 4-bit address any number |
| `RtlSobolTwoModel.v` | `hw/stream/old/Sobol8bit`: SobolRNGtwo, LSZ (eight bits; `outohr` left out). |

`Base.v` holds the Python/torch primitives and `run`; `Spec.v`, `NameSpec.v`, `NewSpec.v`, `TensorSpec.v`, `BinConvSpec.v`, `ChainSpec.v`, `HubErrSpec.v`, `ConvErrSpec.v`, `ProgSpec.v`, `NetSpec.v`, `CnnSpec.v`, `SatSpec.v`, `AliasSpec.v`, `RtlMoreSpec.v`, `RtlRootSpec.v`, `RtlMacSpec.v`, `SqrtEmitSpec.v`, `MonoSpec.v`, `FaultSpec.v`, `SymSpec.v`, `ShiftSpec.v`, `WeightSpec.v`, `StallSpec.v`, `TempoSpec.v`, `RtlTmacSpec.v`, `RtlAddsSpec.v`, `PeriodSpec.v`, `RtlSobolTwoSpec.v`, `CellSpec.v`, `DtypeSpec.v`, `TMetricSpec.v`, `TDivSpec.v`, `ReportSpec.v` the vocabulary of the statements (counting
ones, walks, windows, prefixes, permutations, rounding relations, sums over taps), independent of the models;
`*Proof.v` the lemmas; `Props*.v` the theorems of the manifest, each proved by `exact`, followed by `Print Assumptions`, with `Example`s
that show the hypotheses met by non-trivial data and compute a non-trivial result.

## 2. Trusted base

* The Coq 8.16.1 kernel (and `coqchk`), including `vm_compute`, used in examples and in the witnesses of refutations.
* What `Print Assumptions` lists: "Closed under the global context" for every theorem (section 5).
* The reading of torch/Python/SystemVerilog semantics stated in the comments of `*Model.v` and the correspondence of each definition
  with the lines its comment cites. No code was executed.

Not modelled: float32 rounding outside `Float32Model.v` and `F32LayerModel.v`, overflow to infinity; dtypes other than float32 outside `DtypeModel.v` (the modules of C80 and C81), conversion of floats outside the range of an integer type; autograd bookkeeping (only the
formulas of `backward`); printing; memory layout; aliasing outside `AliasModel.v` (the modules of C91 and C92); device placement; `app/`, `test/`, training code; the RTL modules not named under C54, C59, C60 and C86 onwards;
four-state values and timing in the RTL.

## 3. Per property

For each: the model; the proof. "refuted" theorems state that the stronger claim one would expect is false.

* C01 `bsgen_bit`. Counting over a window of a cyclic list is permutation invariant; counting `r < B` over 0..2^w-1.
* C02 `rng_seq`. Sobol by induction on the width: the second half of the sequence is the first xor a constant with a fresh bit (`SobolProof`).
* C03 `get_lfsr_seq` on an abstract register; entries are the register read most significant bit first; counting over the orbit. Exactness is false for every maximal register.
* C04 `bingen`. Round-half-even relation of `Spec`, saturation, monotonicity, the grid.
* C05 composition of C01, C04 and ProgError.
* C06 counting of the four pair classes; nested streams.
* C07 closed form of the stream by index.
* C08 `rawscale` with torch's linearly interpolated quantile on the sorted data.
* C09, C10 invariants of `skewedsync_step`; the counter is the largest excess over segments, clipped.
* C11 reflection at the running maximum. C12 invariant acc in {0,1}; refuted at depth 3, dead at depth 2.
* C13–C16 `fsuadd_call`; telescoping invariant; the clamp is not active under the bound; configuration latch by induction on calls.
* C17–C19 `fsumul_static_step`; the index is the number of ones; discrepancy of digital sequences by dyadic blocks.
* C20, C21 shift register = last `entry` of pattern ++ inputs. C22 JK: parity since last set/reset; runs.
* C23, C24 `cordiv_*`: `result`-valued step, index error when the sequence is shorter than the register.
* C25, C26 composition of C09/C10/C23 with the sign, absolute value, bi2uni and uni2bi machines.
* C27 Tanaka-type identity. C28 Skorokhod reflection. C29 instance of C13.
* C30 recurrence of the trace. C31 busy-period argument for the feedback loop; the depth-256 default refuted.
* C32–C34 `LinearModel`; refinement of every weight to the static multiplier (C17) and of the accumulation to FSUAdd (C13); constructor outcomes.
* C35, C57 `ConvModel`; convolution = linear layer on the history of windows with a border bit; pair paddings raise.
* C36–C38 integer arithmetic with Python floor/ceil; transposed padding refuted.
* C39, C40, C56 counting table and C19's discrepancy; the operand roles.
* C41 rational arithmetic with near-or-saturated quantisation. C42, C55 induction over digits.
* C43–C46 rational arithmetic, list lemmas, a rejection loop over an oracle stream with fuel (partial correctness, as the loop may not end).
* C47–C49 metric models over histories. C50, C58 binary32: rounding is a nearest number, counters stop at 2^24, FSUAdd exact on a grid.
* C51 interval arithmetic, induction over the sequence.
* C52 `TensorModel`; broadcasting lattice; lane projection commutes with every step.
* C53 bilinear algebra of finite sums.
* C54, C59, C60 SystemVerilog modules (SkewedSync, Abs, Sign, JKFF, CORDIV_kernel, ISCBDIV_U, Bi2Uni, Uni2Bi, BISQRT_S_JK_U/B,
  SobolRNGDim1, uMUL_uni/bi, uSADD8/16, uMAC_uni_scaled) as step functions on bit vectors; simulation relations; witnesses for mismatches.
* C61 `BinConvModel`; the frame unfold–matrix function–fold is proved once, then the linear theorems (C40–C42) apply to the window rows.
* C62 equality of the window rows of two inputs; a witness where the shifts differ.
* C63 the outcome of the constructor; the mixed-format function; two witnesses.
* C64, C65 `MguModel`: per-lane modules next to the two linear layers; an invariant over the calls splits a run into the runs of the modules.
* C66 the calls of HUBMGUCell satisfy C64's hypotheses; ProgError (C47) on the result; a witness against HardMGUCell.
* C67, C68 induction over the history with a greedy (latest) climb; `climbs` in `ChainSpec.v` does not mention an accumulator.
* C69 lower-casing is a normal form of equality up to case (`NameSpec.v`); then a case split over the accepted names.
* C70 `NewModel`: acceptance is an equivalence with conditions on names, numbers and shapes (`NewSpec.v`); error order by cases; the error theorems of C34 and C65 live in the same files.
* C71 `TMetricModel`: invariants over runs in which calls may raise; lanes as in C52.
* C72 perturbed dot products; the shifts bound one quantisation step by the largest magnitude; C40's table error; clipping at the top level for the witness.
* C73 `TDivModel`: one simulation lemma for kernels that may raise; a lane of the register is the list of its slices at one position.
* C74 `ReportModel`: sums of squares around the mean; roots are shown as the rational under them; the scale is not 0, as for C47.
* C75 C61's sums over taps; every value under a tap is 0 or a pixel, so C72's quantisation errors apply uniformly; the witness is one pixel and one tap.
* C76 C19's prefix counts of the encoder and of the multiplier restated as distance from t times the probability, for every prefix; a non-saturating adder's count is the floor of the sum; a convolution's lanes are those of the unfolded image with a border encoding 0; `settles` reads the last unstable cycle off the bound.
* C77 counts over a window of a run are differences of prefix counts, so each sequence costs twice its discrepancy and the adder's two remainders one bit; a value bound is turned back into a count bound for the next layer; induction over the layers. `net_step` is the caller's loop, not code of the repository.
* C78 a sum of multiples of 2^-g below 2^(24-g) is a binary32 number, so every node of the summation tree is exact; table entries are counts of at most 2^(w-1) bits; a shift that would lose bits in binary32 only does so where the rounded integer is 0 anyway; 1 + s is 0 or at least 2^-24, so halving it is exact. The shifts are parameters: the float32 logarithm in rshift_offset is not modelled.
* C79 FSUReLU is a walk reflected below half and clamped at the top: for v >= 0 the output walk stays between the input walk and that plus its dip below the start, as long as no fall exceeds the depth; for v <= 0 no rise does, so the counter, and with it the output walk, stays near half. Convolution taps in the border carry constant or alternating bits, one bit off 0 at most. A predicate "follows a real function" is shown for every module and composed by induction over the sequence. nn.Sequential and flatten are the caller's, not code of the repository; FSULinear only takes rank 2 and FSUConv2d rank 4.
* C80 `DtypeModel`: every torch operation ends with `cast` to the type of its result (wrap, or nearest even). `cast` is characterised without its own arithmetic; a module is exact below the room of its type because no intermediate value leaves the exact range; above it a stream is constructed on which it differs, by running the counter to the first value the type lacks. Bounds that torch would refuse to convert are excluded by `dt_range`.
* C81 Same types. Generators: the integers 0..2^w must be held; otherwise the first integer that is not gives a wrong bit. Counters: the entries of C32/C35 lie in 0..inputs+bias; saturated weights reach the end. FSUAdd: a column of 2^p+1 ones sums to 2^p, and over e columns the exact count of C13 differs. FSULinear and FSUConv2d themselves only accept torch.float.
* C82 The accumulator of FSUAdd is a queue served at rate at most one output per cycle and clamped; a stretch argument (the last cycle at which it was idle or full) bounds what leaves it against the clipped rate. Layers: every product stream is steady (window form of the Sobol discrepancy, which costs twice w), their sum goes through the queue. The clamps of the accumulator are not reached under the depth hypothesis except by what earlier use left behind.
* C83 The window count of the second operand is within K1 + 2^w q1 of its share once 2^w bits of the stretch have passed; the static multiplier with the two extreme counts bounds the output below and above (the output bit is monotone in the count). The first 2^w cycles are paid for in full.
* C84 Composition of C82, C83, the averaging adder (floor of the average with 1, C64) and the inverted stream along `mgu_cell` (C64), against `mgu_next` of `Spec.v`, which `mgu_values` (C51) identifies with HardMGUCell. From the first call only: a cell that is called again continues its accumulators, which this bound does not cover.
* C85 One step of the specification (`mgu_next`) is Lipschitz in the state: the gate moves by half the row sum, the gated state by that more, and a convex combination of two values in [-1, 1] by twice the gate; an induction over the calls adds the error of each. The quantised cell: every operand is off by half a step, the clip after the new gate hides saturation.
* C86 GDIV_U/B, GSQRT_U/B: the counter is a clamped walk (`gcnt_spec`); each clock moves it by the two sides of the equation unless it is clamped, and the hypotheses say when it can be; telescoping. `randNum` is an input: nothing is assumed about where it comes from.
* C87 gMUL, dMUL, tMUL: the generator is the model of C59, whose every period is a permutation; counting below a bound. `tMUL` by induction on A from any idle state; the bound of the first product is the discrepancy of the Sobol sequence (C13).
* C88 uNSADD8/16: `unsadd_acc` in halves against the accumulator of FSUAdd; without offset the hardware's state before the emission is Python's after the addition; with offset 15 the thresholds differ by one half, and the accumulators differ by 0 or 2 halves, which is the difference of the counts. Wrap-around by `vm_compute` on one history and by induction.
* C89 Each module by the invariant of its counter (a walk modulo 2^BW; a count that never falls; a running total); the one-register square roots by pairs of clocks.
* C90 The digit chain is the successor in base b (`chain_1`); the radical inverse is injective on residues (`radical_inj`) and its leading digits are the radical inverse with fewer digits (`radical_prefix`).
* C91 `AliasModel`: a heap of tensor objects pointing into storages, and the constructors and `forward`s as programs of reads, allocations, in-place writes, `.data =` and `.type()`. `AliasProof`: the invariant that the registers' storages are pairwise distinct and disjoint from those of every object the caller can reach is kept by every caller action (`client_good`) and by every program that passes `fwd_ok`; `AliasModProof`, `AliasMod2Proof` execute each program symbolically. Scripts witness the failures of JKFF with int8, SkewedSync and ProgError. One entry per tensor; temporaries inside an expression get no object.
* C92 The FSU layers as C91, with an arbitrary function for what forward computes from weight and input. For the sharing layers the invariant is that the Parameter and `weight_ext` are the same object description (`hub_inv`), so a write through one is a write through the other.

* C93 Both modules follow one law given the gating bits (`oroot_law`). No wrap: the counter plus the number of clocks for which the register still holds a one never exceeds DEP+1 (DEP+2), since a zero is emitted only at the lowest value (`oroot_law_bound`).
* C94 All generators of all lanes are in the same state (`gain_state`), so a column of products is a function of one number; the four-bit selector is a function of the eight-bit number (`sel_lane`, one table of 512 clocks plus periodicity). The error bound sums per-lane bounds that come from a table of all 16 x 257 counts (`lane_err`, `select_error`).
* C95 The counters and the slow generator have closed forms in the clock (`slow_step`, `dmac_state`); the slow number at multiples of 256 is 0 or 129 and the lane 0 (`slow_value`).
* C96 Any bank of multipliers is the table of its lanes (`lanes_cols`), each lane is FSUMul by C60; FSULinear adds the same columns (`layer16`), and its accumulator sees only their sums (`add_lane_sums`), so C60 and C88 apply.
* C97 By the law of C31, with S the ones waiting plus the bit about to be re-injected: for an input of period n, S never grows after cycle n, and while S is positive every output is 1, so after one more period nothing is re-injected and S is used up (`per_inv`). The product law sums the same recurrence (`emit_square`). High bits of torch's first Sobol dimension repeat after 2^(j+1) (`sob_mult`).
* C98 During a stretch of divisor zeros the register stands still, so the output is one function of the sequence's phase; any 2^w consecutive phases read every entry once, and a partial round misses at most what the rest of the round can hold (`wsum_short`). The counterexample is a state that recurs every four cycles (`unlucky_kernel`).
* C99 A relation between the two accumulators that every step keeps (`apart`): either the first is no higher, or the second has emitted at least one more and the first is less than one scale higher; and the second is at most z scales higher, where z pays for what it may still emit more. Both clamps are monotone and do not stretch differences. Dominated prefixes by the characterisation of C67 (a climb through lower levels is a climb through higher ones); layers by `below` being monotone in the weight and in the number of input ones. ReLU by a relation that also counts what the two accumulators have lost at the top (`relu_apart`); the synchroniser is monotone step by step and the kernel reads the same positions of registers that are ordered entry by entry.
* C100 Two runs are compared through a third: the columns' larger sum (or the bitwise maximum) dominates both, so C99 bounds each from it. The static multiplier by `below` growing by at most one per input bit; layers by the exact count of C32; division from C98: one wrong quotient in the register changes K by one and every round of zeros repeats it.
* C101 Reordering: the adder reads its inputs only through their sum, and a lane of a layer only through its own weights and its own row, so runs of the rearranged and the original layer are related by a step-by-step simulation on the accumulators; networks by induction. Negation: bitwise for the multiplier (complementing the input selects the other half of the XNOR with the roles of the two counters swapped), by the exact count of C32 for layers, by C100's `lanes_within` triangle inequality for networks, by C99's walk for the sign.
* C102 FSUConv2d on a history is FSULinear on the table of windows (C35); by C101 one row of that table may be run alone, so equal windows give equal outputs. Crops and strides are equalities of windows; wrong pixels, order and negation come from C99–C101 for the layer, with the border as a stream that both runs share (and that is one bit off its own negation).
* C103 Counts below a bound: with two bounds d apart at most d entries of a period lie between them, which gives BSGen and FSUMul; the layer by its exact count (C34) over prefixes and division rounded up, the network by induction with C100 for what the layer before is off by. Not covered: saturating layers; temporal coding is C105.
* C104 A prefix of a paused stream is a shorter prefix, paused, and pauses do not change counts; where a unit has an exact count (C13, C16, C34) equal counts in all prefixes make the streams equal. SkewedSync by its idle step. The convolution is the layer on windows (C102) with the pauses of the image in each of its rows; the border of a unipolar layer is zero and so pauses with everything. Counterexamples are computed.
* C105 The exact count of a temporally coded layer (C34) over prefixes: its weight bits depend on the cycle only, so products differ only where bits or weight bits differ. The unbounded cases are two explicit families: `tick` multiplies by a one in every even cycle, `halve` turns one wrong bit into a permanent shift by one cycle.
* C106 The registers of a lane at clock t as functions of the loads (operand minus clocks since its load); the adder tree modulo 256 by two registered stages; a load followed by idle rows; the discrepancy by one sweep over the 512-clock period of the generator for each of the 257 operands, checked by the kernel, and periodicity. Refuted: scaled sum, saturation.
* C107 Registers of the adders at clock t as functions of the rows; the low three bits of the eight-bit generator by its 512-clock table and periodicity, its counts from the permutation property of each aligned period; dADD by the state (t mod 8, (t+6)/8 steps). Refuted: equal weight of lanes, exact addition of arbitrary inputs.
* C108 Two-stage pipelines; the accumulator modulo 2^20 by induction; the memory against the last write; the Gray code and LSZ2 by tables over the full register range (4 and 8 bits), so for all clocks; exp by the registers three clocks back. Refuted: seventeen products.
* C109 Counts that grow by a fixed K every P cycles: below a bound the generator's count grows by the bound every 2^w draws, the multiplier's by its share every 2^w P cycles, and the layer's sum by a multiple of the number of entries, which division by that number keeps; bits are differences of counts. Networks by induction; convolutions as layers on windows (C102); FSUHardsigmoid from its exact count. FSUReLU: by the pigeonhole principle its counter returns to a value after some periods and then cycles; in the cycle it cannot touch both ends, since a stream that does not rise over a period cannot lift it by 2^d and one that does not fall cannot lower it so far; if it misses the lower end the output is the input, if it misses the upper end ones and zeros balance. The period is one that always works, not claimed to be the shortest. Not covered: saturating layers, other scales, temporal coding.
* C110 Slices of the merged words by division; the registers as exclusive or of a prefix; every point is the combination of vectors named by the bits of the point of the unit vectors, so taking the vectors in the opposite order only mirrors those bits; tables over the 256 values of a byte for the index and the mirroring, everything else for all vectors. Refuted: the mirrored index gives the Sobol sequence. Not covered: SobolRNGnine as a whole, which does not parse.

RTL not modelled: `Sync`/`skewedSync`/`cordiv`/`iscbdiv` and the other copies under `hw/**/old` of modules modelled elsewhere. `softmax10`, `squash8`, `squash16` and `SobolSeq2` are stubs without logic; `SobolRNGnine` does not parse (missing commas, assignments outside procedures).

## 4. Simplifications

Stated in the comment of each definition. The recurring ones: exact arithmetic (section 1); tensors are rectangular and operands have the
shapes torch requires, unless the definition returns an `Err` for it; configuration dictionaries have the documented keys with values of the documented types.

## 5. Assumptions reported by Coq

`Print Assumptions` follows every theorem in `Props*.v`; each prints "Closed under the global context": no axioms, own or of the standard library,
are used. (`coqchk` over the whole context also lists fields of module types of the standard library, e.g. `Coq.ssr.ssrunder.Under_rel`, because some
standard library files are loaded; no theorem here depends on them.)

## 6. Mutation testing

`seeded/LOG.jsonl` records every wrong program tried: a realistic bug is put into one definition of a scratch copy, everything is rebuilt, and the
theorems that fail are listed, with the theorems tightened when none did.

{"id": "C01", "title": "Checked read is exact and safe", "statement": "MemorySlice::get(i) on a slice that really covers allocated memory returns Ok(the i-th sample of the covered range) when i < len() and Err(IndexOutOfBound) otherwise; it never touches memory outside the range and changes nothing.", "quantifier": "every heap, every valid slice (any base, any length, aliased or not), every usize index, every pointer width and overflow-check setting", "why_tests_cant": "the index and slice space is unbounded and an out-of-range raw read is not observable in a passing test", "anchors": ["src/memory/memory_slice.rs:MemorySlice::get", "src/memory/memory_slice.rs:MemorySlice::get_unchecked"]}
{"id": "C02", "title": "Checked write hits exactly one cell", "statement": "assign(i,v) with i < len() stores v in exactly the addressed cell: a later get(i) through any alias of that cell returns v, every other cell of every allocation is unchanged; with i >= len() it returns Err(IndexOutOfBound) and memory is unchanged.", "quantifier": "every heap, valid mutable slice, index, value, and every other slice over the same heap", "why_tests_cant": "the frame condition quantifies over all other memory and all aliases", "anchors": ["src/memory/memory_slice.rs:MemorySlice::assign", "src/memory/memory_slice.rs:MemorySlice::assign_unchecked"]}
{"id": "C03", "title": "Wrapped read is Euclidean modulo", "statement": "get_wrapped(i) on a valid non-empty slice returns the sample at i mod len() (non-negative remainder) for every signed index including isize::MIN and isize::MAX; on a slice of length 0 it panics (division by zero) and never reads memory.", "quantifier": "every heap, valid slice, every isize index, every pointer width", "why_tests_cant": "unbounded index range; wrap-around at the integer limits", "anchors": ["src/memory/memory_slice.rs:MemorySlice::get_wrapped", "src/memory/memory_slice.rs:MemorySlice::get_wrapped_unchecked"]}
{"id": "C04", "title": "Sub-slice is an in-range alias", "statement": "If get_sub_slice(o,l) returns Ok and o+l does not overflow usize, the result has length l, stays inside the parent's range, reads cell o+i of the parent at i, and a write through either one is seen through the other.", "quantifier": "every heap, valid parent slice, offsets, lengths, indices and written values", "why_tests_cant": "aliasing must hold for every later write", "anchors": ["src/memory/memory_slice.rs:MemorySlice::get_sub_slice"]}
{"id": "C05", "title": "Sub-slice acceptance set", "statement": "get_sub_slice(o,l), when o+l does not overflow, returns Err(IndexOutOfBound) iff o >= len, Err(LengthOutOfBound) iff o < len and o+l >= len, and Ok otherwise. In particular the whole-range and every suffix sub-slice (o+l = len) is refused, although it is in range.", "quantifier": "every length, offset and sub-length", "why_tests_cant": "boundary behaviour over all pairs", "anchors": ["src/memory/memory_slice.rs:MemorySlice::get_sub_slice"]}
{"id": "C06", "title": "Sub-slice overflow breaks memory safety in release builds", "statement": "With overflow checks on, get_sub_slice panics when the offset is inside the parent and o+l overflows usize. With overflow checks off the sum wraps, the call can return Ok with a length far beyond the parent, and a following safe get reads outside the allocation: safe code reaches undefined behaviour.", "quantifier": "every valid parent of length >= 2, both overflow-check settings, every pointer width", "why_tests_cant": "needs arguments near usize::MAX and the read is UB, so no test can assert it", "anchors": ["src/memory/memory_slice.rs:MemorySlice::get_sub_slice"]}
{"id": "C07", "title": "Checked lerp never leaves the slice", "statement": "MemorySlice::lerp(x) never reads outside a valid slice for any f32 x (NaN, infinities, huge, negative) and any length, including lengths above 2^24 where (len-1) as f32 rounds up; with length 0 it panics when overflow checks are on and returns Err otherwise.", "quantifier": "every heap, valid slice of any length, every f32 index", "why_tests_cant": "all 2^32 floats times all lengths; the rounding cases need lengths above 2^24", "anchors": ["src/memory/memory_slice.rs:MemorySlice::lerp"]}
{"id": "C08", "title": "Checked lerp at the last sample depends on the length", "statement": "lerp(len-1) should return the last sample. It does for 1 <= len <= 32; for every len from 33 up to 2^24 it returns Err(IndexOutOfBound) because the 10*EPSILON slack is absorbed by rounding.", "quantifier": "every valid slice with 1 <= len <= 2^24", "why_tests_cant": "the repository's own test only uses length 24", "anchors": ["src/memory/memory_slice.rs:MemorySlice::lerp"]}
{"id": "C09", "title": "Checked lerp interpolates the two neighbours", "statement": "For 0 <= x and floor(x)+1 < len (x finite), lerp(x) = Ok(a*(1-t)+b*t) in f32 with a,b the samples at floor(x), floor(x)+1 and t = x - floor(x), computed exactly, 0 <= t < 1 (for slices longer than 2^24 the sample itself may be returned at an integral x); for x < 0 and for x >= len it returns Err(IndexOutOfBound).", "quantifier": "every heap, valid slice, every finite f32 index", "why_tests_cant": "unbounded inputs", "anchors": ["src/memory/memory_slice.rs:MemorySlice::lerp", "src/float/interpolation.rs:lerp_unchecked"]}
{"id": "C10", "title": "Wrapped lerp is total and periodic on integers", "statement": "lerp_wrapped(x) on a valid non-empty slice never reads outside it for any f32 (it may panic, with overflow checks on, when the floor index is isize::MAX), and for finite |x| < 2^23 interpolates between the samples at floor(x) mod len and floor(x)+1 mod len; at an integer x with finite neighbours it equals the sample at x mod len.", "quantifier": "every heap, valid slice, every f32 index, every correct floor routine", "why_tests_cant": "unbounded inputs and aliasing with the wrap point", "anchors": ["src/memory/memory_slice.rs:MemorySlice::lerp_wrapped"]}
{"id": "C11", "title": "Four-sample window", "statement": "get_slice_of_four_wrapped(i) on a valid non-empty slice returns the samples at i, i+1, i+2, i+3 modulo len for every i <= isize::MAX-3.", "quantifier": "every heap, valid slice, every such index", "why_tests_cant": "unbounded index range", "anchors": ["src/memory/memory_slice.rs:MemorySlice::get_slice_of_four_wrapped"]}
{"id": "C12", "title": "Four-sample window overflow", "statement": "For i > isize::MAX-3, get_slice_of_four_wrapped panics with overflow checks on and reads far outside the allocation with them off (safe function reaching undefined behaviour).", "quantifier": "every valid slice, the three largest indices, both build settings", "why_tests_cant": "UB is not observable by assertion", "anchors": ["src/memory/memory_slice.rs:MemorySlice::get_slice_of_four_wrapped"]}
{"id": "C13", "title": "Wrapped Lagrange window is shifted", "statement": "In exact arithmetic lagrange_wrapped(i, w) at an integer i returns the sample at (i - (min(w,100)/2 - 1)) mod len for w >= 2, so it equals the sample at i only for w = 2 or 3; DelayLine::read_lagrange_wrapped_at (w = 5) therefore returns the sample before the requested one.", "quantifier": "every buffer, integer index and window size 2..=100", "why_tests_cant": "the test only checks finiteness", "anchors": ["src/memory/memory_slice.rs:MemorySlice::lagrange_wrapped", "src/delay_line.rs:DelayLine::read_lagrange_wrapped_at"]}
{"id": "C14", "title": "Wrapped Lagrange panics", "statement": "lagrange_wrapped panics (does not return) for NaN or +infinite positions, for window size 0 with overflow checks on, for window size 1 with a non-integer position (at integer positions it returns 0), and for len = 0 with window size >= 2; otherwise for finite |x| < 2^23 (index at least 50 away from the isize bounds) and w >= 2 it returns a value. It never reads outside a valid slice, for any input.", "quantifier": "every f32 position, window size and valid slice", "why_tests_cant": "unbounded inputs", "anchors": ["src/memory/memory_slice.rs:MemorySlice::lagrange_wrapped", "src/float/interpolation.rs:lagrange"]}
{"id": "C15", "title": "Four-point Lagrange evaluates at the absolute position", "statement": "lagrange_four_points_wrapped(x) fetches samples starting at floor(x) but evaluates the polynomial at x itself instead of its fraction: in exact arithmetic at integer x = i with 0 <= i <= 3 it returns the sample at 2i mod len, and a linear ramp of slope 1 is reported as 2x-ish instead of x.", "quantifier": "every buffer and every index", "why_tests_cant": "no test covers it", "anchors": ["src/memory/memory_slice.rs:MemorySlice::lagrange_four_points_wrapped", "src/float/interpolation.rs:lagrange_only_4_elements"]}
{"id": "C16", "title": "Any history of safe slice calls stays in bounds", "statement": "Any finite sequence of get, assign, get_wrapped, get_slice_of_four_wrapped, lerp, lerp_wrapped and get_sub_slice calls on a pool of valid slices (sub-slices join the pool) never reaches undefined behaviour, provided no index exceeds isize::MAX-3 in the four-sample call and no sub-slice request overflows usize; and the contents seen agree with a plain array model.", "quantifier": "every history of calls, arguments and aliasing pattern", "why_tests_cant": "quantifies over unbounded call histories", "anchors": ["src/memory/memory_slice.rs"]}
{"id": "C17", "title": "Delay line is a FIFO of its buffer length", "statement": "DelayLine over a valid non-empty buffer of n samples: with read before every write_and_advance, the m-th read returns the m-th element of (initial buffer content ++ values written so far): each sample comes back exactly n writes later.", "quantifier": "every buffer length and initial content, every sequence of writes of any length", "why_tests_cant": "unbounded histories", "anchors": ["src/delay_line.rs:DelayLine::read", "src/delay_line.rs:DelayLine::write_and_advance"]}
{"id": "C18", "title": "Delay line taps", "statement": "read_wrapped_at(j) after any history of writes and advances returns the queue element at j mod n counted from the oldest; in particular read_wrapped_at(-k) for 1 <= k <= n is the value written k writes ago.", "quantifier": "every history, every offset that keeps index+offset within isize", "why_tests_cant": "unbounded histories and offsets", "anchors": ["src/delay_line.rs:DelayLine::read_wrapped_at"]}
{"id": "C19", "title": "Delay line confines its accesses", "statement": "A delay line over a valid non-empty buffer never reads or writes outside that buffer and never changes any other memory, for every history of read, read_wrapped_at, write_and_advance and advance (a tap whose offset overflows isize panics when overflow checks are on).", "quantifier": "every history and every rest-of-memory", "why_tests_cant": "frame over all memory and histories", "anchors": ["src/delay_line.rs"]}
{"id": "C20", "title": "Changing the buffer keeps the old position", "statement": "change_buffer does not reset the position: the line stays memory-safe iff the current position is below the new length; with a shorter buffer the next read or write_and_advance is out of bounds (undefined behaviour from safe code).", "quantifier": "every pair of valid buffers and every position", "why_tests_cant": "UB is not observable by assertion", "anchors": ["src/delay_line.rs:DelayLine::change_buffer"]}
{"id": "C21", "title": "Empty delay line", "statement": "A delay line over a null or empty slice reaches undefined behaviour on its first read or write.", "quantifier": "every empty slice", "why_tests_cant": "UB is not observable by assertion", "anchors": ["src/delay_line.rs:DelayLine::read", "src/delay_line.rs:DelayLine::write_and_advance"]}
{"id": "C22", "title": "Comb filter recurrence", "statement": "Comb::tick over n samples of buffer implements, bit for bit in f32, y[m] = d[m], s[m] = y[m]*(1-damp) + s[m-1]*damp, w[m] = x[m] + s[m]*feedback, d = initial buffer ++ w, for any interleaving of set_dampening and set_feedback with ticks.", "quantifier": "every buffer, every input sequence, every parameter history", "why_tests_cant": "unbounded histories", "anchors": ["src/comb.rs:Comb::tick"]}
{"id": "C23", "title": "Comb filter bounded output", "statement": "With the default settings, inputs bounded by M and buffer contents bounded by 2M (2M finite in f32) keep every output and every stored sample finite and bounded by 2M for ever.", "quantifier": "every input sequence of any length, every buffer length, every such M", "why_tests_cant": "unbounded time", "anchors": ["src/comb.rs:Comb::tick"]}
{"id": "C24", "title": "All-pass recurrence", "statement": "AllPass::tick over n samples implements, bit for bit in f32, d = initial buffer ++ w, w[m] = x[m] + d[m]*0.5, y[m] = -x[m] + d[m].", "quantifier": "every buffer and input sequence", "why_tests_cant": "unbounded histories", "anchors": ["src/all_pass.rs:AllPass::tick"]}
{"id": "C25", "title": "All-pass bounded output", "statement": "Inputs bounded by M with buffer contents bounded by 2M (3M finite) give outputs finite and bounded by the f32 rounding of 3M for ever, and stored samples bounded by 2M; no NaN can appear.", "quantifier": "every input sequence of any length, every buffer length", "why_tests_cant": "unbounded time", "anchors": ["src/all_pass.rs:AllPass::tick"]}
{"id": "C26", "title": "AllPass is not all-pass", "statement": "In exact arithmetic the AllPass unit has transfer (-1 + 1.5 z^-n)/(1 - 0.5 z^-n): DC gain is 1 but the energy of its impulse response after 1+n+k*n samples is 1 + (4/3)(1 - 4^-(k+1)), exceeding the input energy for every k: it does not preserve energy.", "quantifier": "every buffer length n and every horizon k", "why_tests_cant": "unbounded horizon", "anchors": ["src/all_pass.rs:AllPass::tick"]}
{"id": "C27", "title": "Biquad realises its difference equation", "statement": "In exact arithmetic Biquad::process from rest yields y[n] = b0 x[n] + b1 x[n-1] + b2 x[n-2] - a1 y[n-1] - a2 y[n-2] for fixed coefficients.", "quantifier": "every coefficient set, every input sequence, every n", "why_tests_cant": "unbounded sequences", "anchors": ["src/biquad/mod.rs:Biquad::process"]}
{"id": "C28", "title": "Biquad is linear and time invariant", "statement": "In exact arithmetic the output for a*u+b*v is a*out(u)+b*out(v), and delaying the input delays the output.", "quantifier": "all inputs, scalars, delays", "why_tests_cant": "unbounded sequences", "anchors": ["src/biquad/mod.rs:Biquad::process"]}
{"id": "C29", "title": "A poisoned biquad never recovers", "statement": "In f32, once a biquad has produced a non-finite output every later output is non-finite, and once it has produced a NaN every later output is NaN, whatever the inputs and whatever new coefficients are installed; a single non-finite (NaN) input is enough. A filter with fresh all-zero coefficients outputs zero for ever on finite input.", "quantifier": "every coefficient history, every input sequence", "why_tests_cant": "unbounded sequences", "anchors": ["src/biquad/mod.rs:Biquad::process"]}
{"id": "C30", "title": "Every Butterworth design is stable", "statement": "In exact arithmetic every design (low-pass, high-pass, all-pass, notch, bell and low shelf with any real gain) with fc, q, sr > 0 has both poles strictly inside the unit circle; any bounded input gives a bounded output and the response dies out geometrically when the input stops. Not so for the cut designs at gain 0, which bell and low_shelf reach with gain -0.0: the poles lie on the unit circle, and the low shelf answers a unit impulse without bound.", "quantifier": "all fc, q, sr > 0, all gains, every bounded input sequence", "why_tests_cant": "infinitely many parameters and unbounded sequences", "anchors": ["src/biquad/butterworth.rs:lowpass", "src/biquad/butterworth.rs:highpass", "src/biquad/butterworth.rs:allpass", "src/biquad/butterworth.rs:notch", "src/biquad/butterworth.rs:bell", "src/biquad/butterworth.rs:low_shelf", "src/biquad/mod.rs:Biquad::process"]}
{"id": "C31", "title": "Low-pass and high-pass gains", "statement": "In exact arithmetic, a constant input c through the low-pass converges to c, and an alternating input c,-c,... converges to 0; through the high-pass the constant converges to 0 and the alternating input to itself.", "quantifier": "all fc,q,sr > 0, all c, any initial state", "why_tests_cant": "limit statement", "anchors": ["src/biquad/butterworth.rs:lowpass", "src/biquad/butterworth.rs:highpass", "src/biquad/mod.rs:Biquad::process"]}
{"id": "C32", "title": "All-pass biquad is lossless", "statement": "In exact arithmetic the all-pass design from rest never outputs more energy than it received, at every time, the difference being a non-negative function of the state; so it preserves the energy of every decaying-state input.", "quantifier": "all fc,q,sr>0, every input sequence and horizon", "why_tests_cant": "unbounded sequences", "anchors": ["src/biquad/butterworth.rs:allpass", "src/biquad/mod.rs:Biquad::process"]}
{"id": "C33", "title": "Notch removes its centre frequency", "statement": "In exact arithmetic, with k the designed tangent and w = 2 atan k, the notch response to any sinusoid of angular frequency w converges to 0, while DC and alternating inputs converge to themselves.", "quantifier": "all fc,q,sr > 0, all amplitudes and phases", "why_tests_cant": "limit statement", "anchors": ["src/biquad/butterworth.rs:notch", "src/biquad/mod.rs:Biquad::process"]}
{"id": "C34", "title": "Bell gain and bell inverse", "statement": "In exact arithmetic the bell with gain g > 0 passes DC and alternating inputs unchanged and scales a sinusoid at its centre by g; bell with gain -g is the exact inverse of bell with gain g: cascading them from rest reproduces the input.", "quantifier": "all fc,q,sr,g > 0, every input sequence", "why_tests_cant": "unbounded sequences", "anchors": ["src/biquad/butterworth.rs:bell", "src/biquad/mod.rs:Biquad::process"]}
{"id": "C35", "title": "Low shelf gain and inverse", "statement": "In exact arithmetic the low shelf with gain g > 0 scales a constant input by g in the limit and leaves alternating input unchanged; gain -g gives the exact inverse filter (cascade is the identity from rest).", "quantifier": "all fc,q,sr,g > 0, every input sequence", "why_tests_cant": "unbounded sequences", "anchors": ["src/biquad/butterworth.rs:low_shelf", "src/biquad/mod.rs:Biquad::process"]}
{"id": "C36", "title": "Fixed-point sine never overflows", "statement": "sin_i16 for every i16 phase and every u8 degree returns without overflow panic and the narrowing to i16 loses nothing; degrees above 4 behave as 4; sin_i16_unchecked panics (index out of bounds) exactly for degrees above 4.", "quantifier": "all 65536 phases times 256 degrees, both build settings", "why_tests_cant": "completeness over the domain is a proof obligation, tests sample it", "anchors": ["src/fixed_point/math.rs:sin_i16", "src/fixed_point/math.rs:sin_i16_unchecked"]}
{"id": "C37", "title": "Fixed-point sine accuracy", "statement": "For every i16 phase p, sin_i16(p,4) - 32767*sin(pi/2 * p/32767) lies in [-3.11, 0.34]; for every degree 0..4 and p > -32768, sin_i16(p,d)+sin_i16(-p,d) is in [-3,0]; and a later phase never gives a value more than 3 units below an earlier one (degree 4).", "quantifier": "all phases", "why_tests_cant": "compares against the real sine, needs analysis", "anchors": ["src/fixed_point/math.rs:sin_i16_unchecked"]}
{"id": "C38", "title": "Sine lookup table", "statement": "sine_table::<N>() is built without overflow for every length 1..65535 and its entries are sin_i16 of phase index*(65535/N)-32767; the library's own table (4096) therefore covers only phases -32767..28658 and its last entry falls short of full scale (32133, below 0.981); lookup_sin never indexes outside the table for any f32, is NaN exactly for non-finite arguments and otherwise in [-1.0001, 0.981]. A length that is a multiple of 65536 (or 0) panics; above 65536 the length is cut to 16 bits, so the table runs through wrapped phases instead of one half wave, and with overflow checks it panics exactly if the last phase exceeds an i32.", "quantifier": "every table length up to 2^31 and index, every f32 argument, every build", "why_tests_cant": "all floats", "anchors": ["src/oscillator/lookup_tables/mod.rs:sine_table", "src/float/math.rs:lookup_sin"]}
{"id": "C39", "title": "Phase accumulator closed form", "statement": "After n ticks at a constant setting next_value returns (c0 + n*step + shift) mod 2^32 with step = (freq*min_step) saturated to u32; set_phase_shift only offsets the output, and set_freq_unchecked mid-run keeps phase continuity.", "quantifier": "every setting, every n, every history of setter calls", "why_tests_cant": "unbounded histories", "anchors": ["src/oscillator/phase_accumulator.rs:SoftPhaseAccumulator"]}
{"id": "C40", "title": "Normalised phase range", "statement": "next_value_normalized is always finite, in [0,1], equals the 32-bit phase rounded to 24 bits over 2^32, and equals exactly 1.0 iff the phase is at least 2^32-128.", "quantifier": "every accumulator state", "why_tests_cant": "all 2^32 phases", "anchors": ["src/oscillator/phase_accumulator.rs:next_value_normalized"]}
{"id": "C41", "title": "Degenerate frequencies", "statement": "With a positive sample rate a negative, zero or NaN frequency freezes the phase for any number of calls; an infinite frequency or one exceeding the sample rate by a factor 1+2^-22 saturates the increment to 2^32-1, so the phase runs backwards by one per call.", "quantifier": "every state and such frequency", "why_tests_cant": "all floats", "anchors": ["src/oscillator/phase_accumulator.rs:tick"]}
{"id": "C42", "title": "Frequency accuracy", "statement": "For 0 <= freq <= sr <= 2^24 with sr >= 1 the per-tick phase increment differs from 2^32*freq/sr by at most 1 + 2^-22 * 2^32*freq/sr.", "quantifier": "all such f32 pairs", "why_tests_cant": "all floats", "anchors": ["src/oscillator/phase_accumulator.rs:new", "src/oscillator/phase_accumulator.rs:tick"]}
{"id": "C43", "title": "Checked frequency setter has no effect", "statement": "SoftPhaseAccumulator::set_freq consumes the accumulator by value: it returns Err(Zero) iff freq == 0, Err(Negative) iff freq < 0, Ok otherwise (also for NaN, infinity and above Nyquist; BiggerThanNyquist is never returned), and no live accumulator ever changes.", "quantifier": "every accumulator and f32", "why_tests_cant": "all floats", "anchors": ["src/oscillator/phase_accumulator.rs:set_freq"]}
{"id": "C44", "title": "Sawtooth and triangle range", "statement": "next with Sawtooth or Triangle returns a finite f32 in [-1,1] for every phase; the sawtooth is the f32 rounding of 2v-1; the triangle is within 2^-21 of the ideal triangle, exact when the normalised phase v is a multiple of 2^-24, and then equal at v and 1-v.", "quantifier": "every accumulator state", "why_tests_cant": "all 2^32 phases", "anchors": ["src/oscillator/osc_functional.rs:next_saw", "src/oscillator/osc_functional.rs:next_tri"]}
{"id": "C45", "title": "Rectangle output values", "statement": "next with Rectangle returns exactly -1 when the normalised phase is below 0.5 and exactly +1 when it is in [0.5,1); for the phases that normalise to exactly 1.0 it returns 3.0, which is outside the audio range.", "quantifier": "every accumulator state, every correct floor routine", "why_tests_cant": "the top 128 of 2^32 phases", "anchors": ["src/oscillator/osc_functional.rs:next_rect"]}
{"id": "C46", "title": "Sine oscillator range", "statement": "next with Sine returns a finite value in [-32768/32767 (rounded to f32), 1] within 1.6e-4 of sin(2*pi*phase/2^32) for every 32-bit phase, and fixed_point_sin returns a value in that range for every f32.", "quantifier": "every accumulator state, every finite f32", "why_tests_cant": "all floats", "anchors": ["src/oscillator/osc_functional.rs:next_sine", "src/float/math.rs:fixed_point_sin"]}
{"id": "C47", "title": "Wavetable oscillator over-reads", "statement": "WavetableOscillator::next over a table of n samples reads table[k] and table[k+1], where k is the integer part of the f32 product of n and the normalised phase: it stays inside the table iff k+1 < n. For n <= 2^24, every call whose normalised phase is at least (n-1)/n therefore reads beyond the table (undefined behaviour when the table ends its allocation). Where the allocation goes on behind the table, the sample behind the table, which is not part of it, is mixed into the output instead.", "quantifier": "every table of 2 to 2^24 samples, every phase", "why_tests_cant": "UB is not observable by assertion", "anchors": ["src/oscillator/osc_wavetable.rs:WavetableOscillator::next"]}
{"id": "C48", "title": "Envelope stays in [0,1]", "statement": "For an ADSR with sample rate in [1,2^22], stage times of at least one sample (or negative), sustain a number (clamped by the API), slope within the documented clamp, no call panics and every tick in every history of trigger_on, trigger_off, reset, tick and parameter setters (set_sr included) returns a finite value in [0,1].", "quantifier": "every history, every parameter choice in range, every power routine that is finite, non-negative and >= 1 on bases >= 1", "why_tests_cant": "unbounded histories", "anchors": ["src/envelope.rs:AudioRateADSR"]}
{"id": "C49", "title": "Envelope can emit NaN for ever", "statement": "Zero stage times are accepted. With zero attack and decay times, sustain 1 and a slope for which the power overflows to infinity, the first tick returns 1 and every later tick is NaN; the decay never ends. Likewise every tick is NaN after releasing before the first attack tick with a zero release time.", "quantifier": "every sample rate in range, every slope and power routine with powf(MAX, slope) = inf and powf(inf, slope) = inf, any number of further ticks", "why_tests_cant": "needs a particular corner and unbounded time", "anchors": ["src/envelope.rs:next_decay", "src/envelope.rs:next_release"]}
{"id": "C50", "title": "Envelope stage order", "statement": "tick only moves Attack->Decay, Decay->Sustain, Release->Idle or stays; trigger_on always leads to Attack; trigger_off leads to Release from Attack, Decay, Sustain and is ignored in Idle and Release; reset leads to Idle; setters never change the stage.", "quantifier": "every state and call", "why_tests_cant": "all states", "anchors": ["src/envelope.rs:tick", "src/envelope.rs:trigger_on", "src/envelope.rs:trigger_off", "src/envelope.rs:reset"]}
{"id": "C51", "title": "Envelope stages end", "statement": "Under the conditions of the range property, left alone, Attack ends within n ticks as soon as n*(attack rate - 2^-25) >= 1, then Decay likewise, and the envelope then sustains for ever; Release likewise ends in Idle. A fresh envelope triggered sustains after at most 8*sr ticks, and released at any time after that is idle at most 4*sr ticks later.", "quantifier": "every reachable envelope, every parameter choice in range, every later tick", "why_tests_cant": "liveness", "anchors": ["src/envelope.rs:next_attack", "src/envelope.rs:next_decay", "src/envelope.rs:next_release"]}
{"id": "C52", "title": "Envelope monotone inside a stage", "statement": "With a power routine monotone in its base, in every reachable envelope consecutive ticks inside Attack never decrease, and from Decay or Release on the next tick never increases.", "quantifier": "every reachable envelope", "why_tests_cant": "all floats", "anchors": ["src/envelope.rs:tick"]}
{"id": "C53", "title": "Envelope timing parameter", "statement": "The stage rate is 1/(secs*sr) to a relative error of 2^-22 for times up to 2 s and exactly the two-second rate 0.5/sr for longer and for negative times; it is never below that rate; a zero time gives f32::MAX and a NaN time a NaN rate. The setter panics iff the sample rate is NaN or a non-negative number not above 2^-129.", "quantifier": "every f32 pair", "why_tests_cant": "all floats", "anchors": ["src/envelope.rs:set_time_parameter"]}
{"id": "C54", "title": "Retrigger and release levels", "statement": "trigger_on from Idle or Attack restarts the attack from zero (the outputs then depend on the parameters only); from Decay, Sustain or Release it keeps the stage clock, so retriggering once the clock is within one attack step of 1 (as after a finished decay) jumps to 1 on the next tick. A release after an Attack or Decay tick never goes above that tick's output, but set_sustain during Sustain is heard at once and ignored by the release, which starts from the old level.", "quantifier": "every state in range", "why_tests_cant": "all states", "anchors": ["src/envelope.rs:trigger_on", "src/envelope.rs:trigger_off", "src/envelope.rs:set_sustain"]}
{"id": "C55", "title": "Changing the sample rate keeps stage lengths in samples", "statement": "set_sr changes none of the stage rates already set: every history of calls other than the time setters gives the same outputs, and panics alike, with or without it.", "quantifier": "every state, every sample rate and every history of calls other than the time setters", "why_tests_cant": "unbounded histories", "anchors": ["src/envelope.rs:set_sr"]}
{"id": "C56", "title": "Raw word round trip", "statement": "to_raw_word and from_raw_word are inverse bijections between all f32 values (all NaN payloads included) and all 32-bit words.", "quantifier": "all 2^32 words", "why_tests_cant": "all floats", "anchors": ["src/float/conversion.rs:to_raw_word", "src/float/conversion.rs:from_raw_word"]}
{"id": "C57", "title": "Component round trip", "statement": "from_f32_components(to_f32_components(x)) = x for every f32 and every u32; the reverse holds iff the mantissa is below 2^23, and a larger mantissa corrupts the exponent or overflows.", "quantifier": "all words, all component triples", "why_tests_cant": "all floats", "anchors": ["src/float/conversion.rs:to_f32_components", "src/float/conversion.rs:from_f32_components"]}
{"id": "C58", "title": "Linear bit reduction is exact truncation", "statement": "bit_reduce(x,d) for x in [-1,1], 1 <= d <= 30 returns Ok(sign * floor(|x|*2^(31-d))/2^(31-d)) exactly; it is idempotent, odd, never increases magnitude, and errs by less than 2^(d-31); d = 0 is the identity; out-of-range inputs are refused; NaN becomes a zero for d >= 1.", "quantifier": "all f32, all u8 depths", "why_tests_cant": "all floats", "anchors": ["src/float/bit_manipulation.rs:bit_reduce", "src/float/bit_manipulation.rs:bit_reduce_unchecked"]}
{"id": "C59", "title": "Exponential bit reduction", "statement": "bit_reduce_exp(x,d) for d <= 23 clears the low d mantissa bits: same sign and exponent, idempotent, magnitude never grows, relative error below 2^(d-23) on normal numbers; infinities are kept; a NaN whose surviving mantissa bits are all zero becomes an infinity. d > 23 is refused.", "quantifier": "all f32, all u8 depths", "why_tests_cant": "all floats", "anchors": ["src/float/bit_manipulation.rs:bit_reduce_exp", "src/float/bit_manipulation.rs:bit_reduce_exp_unchecked"]}
{"id": "C60", "title": "lerp endpoints", "statement": "For finite a,b: lerp(a,b,0) == a and lerp(a,b,1) == b (IEEE equality).", "quantifier": "all finite pairs", "why_tests_cant": "all floats", "anchors": ["src/float/interpolation.rs:lerp_unchecked", "src/float/interpolation.rs:lerp"]}
{"id": "C61", "title": "lerp accuracy and overflow freedom", "statement": "For finite a,b and t in [0,1] lerp returns Ok of a finite value, never overflowing even at f32::MAX, within 2^-22*max(|a|,|b|) + 2^-148 of the exact interpolation; it may however leave [min(a,b),max(a,b)] by an ulp.", "quantifier": "all finite pairs and t", "why_tests_cant": "all floats", "anchors": ["src/float/interpolation.rs:lerp"]}
{"id": "C62", "title": "lerp input validation", "statement": "lerp returns Err(InputNaN) iff a or b is NaN, else Err(InputInfinite) iff one is infinite, else Err(InterpolationRange) iff t<0 or t>1; a NaN t is not refused and yields Ok(NaN).", "quantifier": "all f32 triples", "why_tests_cant": "all floats", "anchors": ["src/float/interpolation.rs:lerp"]}
{"id": "C63", "title": "Lagrange interpolation is exact", "statement": "In exact arithmetic lagrange(ys,x) is the unique polynomial of degree < n through (j,ys[j]): it returns ys[j] at every node and reproduces every polynomial of degree below n; lagrange_only_4_elements is the same function for n = 4.", "quantifier": "every list, every x, every polynomial", "why_tests_cant": "unbounded", "anchors": ["src/float/interpolation.rs:lagrange", "src/float/interpolation.rs:lagrange_only_4_elements"]}
{"id": "C64", "title": "Lagrange precondition", "statement": "lagrange panics exactly when its position is NaN or greater than len-1 (rounded to f32; usize::MAX for an empty list with overflow checks off), or, with overflow checks on, when the list is empty; otherwise it returns.", "quantifier": "all lists that fit in memory, all f32 including infinities", "why_tests_cant": "all floats", "anchors": ["src/float/interpolation.rs:lagrange"]}
{"id": "C65", "title": "Pan range check", "statement": "stereo_pan and mono_pan return Err(TooLeft) iff amount < -1, Err(TooRight) iff amount > 1, and Ok otherwise; a NaN amount is accepted and yields NaN samples.", "quantifier": "all f32", "why_tests_cant": "all floats", "anchors": ["src/stereo.rs:check_pan_error", "src/stereo.rs:mono_pan", "src/stereo.rs:stereo_pan"]}
{"id": "C66", "title": "Mono pan law", "statement": "mono_pan for amount in [-1,1] and finite sample gives finite channels whose magnitudes never exceed the sample's; panning by -a swaps the channels exactly; left is non-increasing and right non-decreasing in amount; at +-1 one channel is exactly zero and the other exactly the sample.", "quantifier": "all amounts in range, all finite samples", "why_tests_cant": "all floats", "anchors": ["src/stereo.rs:mono_pan_unchecked"]}
{"id": "C67", "title": "Constant-sum and constant-power laws", "statement": "In exact arithmetic mono_pan channels sum to the sample and crossfade is a convex combination of its inputs; stereo_pan gains have squares summing to 1.", "quantifier": "all amounts in [-1,1]", "why_tests_cant": "all reals", "anchors": ["src/stereo.rs:mono_pan_unchecked", "src/stereo.rs:crossfade_correlated_unchecked", "src/stereo.rs:stereo_pan_unchecked"]}
{"id": "C68", "title": "Decibel input validation", "statement": "to_decibels returns Err(Nan) iff the ratio is negative; to_decibels_checked additionally returns Err(Infinite) iff it is zero; both return Ok(NaN) for a NaN input, against the documentation.", "quantifier": "all f32, every log routine that maps NaN to NaN", "why_tests_cant": "all floats", "anchors": ["src/decibels.rs:to_decibels", "src/decibels.rs:to_decibels_checked"]}
{"id": "C69", "title": "Decibel round trip", "statement": "In exact arithmetic to_volt_ratio and to_decibels are inverse on positive ratios, products become sums, and both are strictly increasing.", "quantifier": "all positive reals", "why_tests_cant": "all reals", "anchors": ["src/decibels.rs:to_volt_ratio", "src/decibels.rs:to_decibels_unchecked"]}
{"id": "C70", "title": "Digital clip", "statement": "digital_clip returns a value in [-1,1] for every non-NaN input, is the identity inside, idempotent, monotone, and passes NaN through.", "quantifier": "all f32", "why_tests_cant": "all floats", "anchors": ["src/clipping.rs:digital_clip"]}
{"id": "C71", "title": "Unfinished clippers", "statement": "tanh_clip, poly_clip and sigmoid_clip return +-1 outside [-1,1] and panic for every sample inside [-1,1] and for NaN.", "quantifier": "all f32", "why_tests_cant": "all floats", "anchors": ["src/clipping.rs:tanh_clip", "src/clipping.rs:poly_clip", "src/clipping.rs:sigmoid_clip"]}
{"id": "C72", "title": "Time and sample conversions", "statement": "In exact arithmetic the second and millisecond conversions are inverse for sr <> 0. In f32, for values and sample rates between 2^-40 and 2^40 in magnitude, samples to seconds and back (or seconds to samples and back) errs by at most 2^-23 + 2^-48 relative, samples to milliseconds and back by at most 2^-22 + 2^-44; each f32 conversion is monotone for every positive finite sample rate, infinities included.", "quantifier": "all reals; all f32 in the stated ranges", "why_tests_cant": "all floats", "anchors": ["src/float/dsp_util.rs:DSPUtility"]}
{"id": "C73", "title": "Simpson rule weight error", "statement": "In exact arithmetic simpsons_rule with an even number N >= 4 of nodes returns, for every function, the composite Simpson rule plus 4h/3 times the sum of the values at the odd nodes, because these are added twice; so affine functions are integrated to exactly 5/3 of their integral (constants too), and constants with odd N >= 3 to 5/3 - 2/N of it; N < 3 panics for every function, in f32 too. Whether the version of core in use starts a sum at 0.0 or at -0.0 never changes the outcome by more than the sign of a zero.", "quantifier": "every function, every N, every interval", "why_tests_cant": "unbounded N", "anchors": ["src/float/integral.rs:simpsons_rule"]}
{"id": "C74", "title": "tanh approximation", "statement": "In exact arithmetic tanh returns x/(1+x^2/2): odd, bounded by 1/sqrt 2 in magnitude (taken at sqrt 2), increasing up to sqrt 2 and decreasing from there, at most 2/|x|; in f32 every finite |x| < 2^64 gives a finite value within 2^-20 of that formula and every other argument (finite |x| >= 2^64, infinities, NaN) gives NaN.", "quantifier": "all reals; all f32", "why_tests_cant": "all floats", "anchors": ["src/float/math.rs:tanh"]}
{"id": "C75", "title": "Hyperbolic symmetry and sinc", "statement": "For every exp routine cosh(-x) = cosh(x) and sinh(-x) = -sinh(x) in f32 up to NaN payloads and zero sign; sinc(0) = 1 and sinc(x) is within 1.0001/|x| otherwise.", "quantifier": "all f32, every exp routine", "why_tests_cant": "all floats", "anchors": ["src/float/math.rs:sinh", "src/float/math.rs:cosh", "src/float/math.rs:sinc"]}
{"id": "C76", "title": "fast_tan polynomial", "statement": "In exact arithmetic fast_tan is odd, strictly increasing, at least x for positive x, below tan on (0, pi/2), and within x^17/1000 of tan on [0,1].", "quantifier": "all reals in the stated ranges", "why_tests_cant": "needs analysis", "anchors": ["src/float/math.rs:fast_tan"]}
{"id": "C77", "title": "Band-limited rectangle over-reads at two points", "statement": "lookup_bl_rect reads outside its 5075-entry table exactly for the arguments 0.25 and 0.75 and for no other f32, and never panics; outside (0,1) and for NaN it returns 0; elsewhere it interpolates two neighbouring entries at 5074 times the exact quarter-wave position, is symmetric about 1/4 and changes sign exactly half a period on.", "quantifier": "all f32", "why_tests_cant": "two of 2^32 floats, and the read is UB", "anchors": ["src/float/math.rs:lookup_bl_rect", "src/memory/memory_slice.rs:MemorySlice::lerp_unchecked"]}
{"id": "C78", "title": "All-pass phase", "statement": "In exact arithmetic the all-pass design lets constant and alternating inputs through unchanged and inverts a sinusoid at its centre, from any initial state.", "quantifier": "all fc, q, sr > 0, amplitudes, phases, initial states", "why_tests_cant": "limit statement over infinitely many parameters", "anchors": ["src/biquad/butterworth.rs:allpass", "src/biquad/mod.rs:Biquad::process"]}
{"id": "C79", "title": "Gain at the cut-off", "statement": "In exact arithmetic a sinusoid at the centre frequency w = 2 atan(k), k the designed tangent, leaves the low-pass scaled by q and a quarter period late, and leaves the high-pass scaled by q and a quarter period early.", "quantifier": "all fc, q, sr > 0, amplitudes, phases, initial states", "why_tests_cant": "limit statement over infinitely many parameters", "anchors": ["src/biquad/butterworth.rs:lowpass", "src/biquad/butterworth.rs:highpass", "src/biquad/mod.rs:Biquad::process"]}
{"id": "C80", "title": "Float sine and cosine follow the real ones", "statement": "For every finite f32 x, fixed_point_sin(x) is finite and within 0.00015 + |x|*2^-22 of sin(x), and fixed_point_cos(x) within 0.00016 + |x|*2^-21 of cos(x), including the argument reduction; for infinities and NaN both return 0 rather than NaN.", "quantifier": "every f32", "why_tests_cant": "4 billion arguments, compared with the real functions", "anchors": ["src/float/math.rs:fixed_point_sin", "src/float/math.rs:fixed_point_cos", "src/fixed_point/math.rs:sin_i16_unchecked"]}
{"id": "C81", "title": "sinc accuracy and its hole at zero", "statement": "sinc(0) is 1; for every finite non-zero x, sinc(x) is finite and within 0.00016/|x| + 2^-21 of sin(x)/x. A user expects sinc to approach 1 near 0: instead every x with 0 < |x| <= 2^-15 gives 0.", "quantifier": "every finite f32", "why_tests_cant": "all floats; the hole is invisible at ordinary arguments", "anchors": ["src/float/math.rs:sinc", "src/float/math.rs:__sinc_f32"]}
{"id": "C82", "title": "Envelope parameters in force", "statement": "After every history of envelope calls, each stage runs at the rate computed from the time last set for that stage, at the sample rate that was in force when it was set (the constructor's if it was never set); the sustain level is the last one set, clamped to [0, 1]; the slope is the last one set, clamped to [1/20, 20], except that the constructor's slope is taken exactly as given, unclamped. Triggers, ticks and reset change none of them, and no setter changes another stage's parameter.", "quantifier": "every constructor argument and every finite history of calls that does not panic", "why_tests_cant": "histories interleave setters, sample-rate changes, triggers and ticks in unboundedly many ways", "anchors": ["src/envelope.rs:AudioRateADSR::new", "src/envelope.rs:set_attack", "src/envelope.rs:set_decay", "src/envelope.rs:set_sustain", "src/envelope.rs:set_release", "src/envelope.rs:set_slope", "src/envelope.rs:set_sr"]}
{"id": "C83", "title": "Envelope stage curves", "statement": "With a usable power routine: the (k+1)-th tick of an attack started from idle (or restarted during an attack) is c^(1/slope) with c within (k+2)*2^-25 of (k+1) times the attack rate, until that reaches 1, when the tick returns exactly 1 and the decay begins; the (k+1)-th tick of the decay is s + (1-s)(1 - c^slope) to within 2^-22, until c^slope reaches 1, when it is exactly the sustain level s; the (k+1)-th tick of a release that follows a tick returning v is v(1 - c^slope) to within 2^-22, until c^slope reaches 1, when it is 0 and the envelope is idle; a release value that is not above 2^-23 is returned as 0 and ends the release, a larger one does not, and the decay lasts exactly as long as its value is above the sustain level. For a fresh envelope the attack clock is (k+1)/(seconds * sample rate) with the stated error.", "quantifier": "every envelope reachable by calls in range, every tick number, every power routine meeting the contract", "why_tests_cant": "the rounding error of the stage clock accumulates with the number of ticks; all parameters", "anchors": ["src/envelope.rs:next_attack", "src/envelope.rs:next_decay", "src/envelope.rs:next_release", "src/envelope.rs:trigger_on", "src/envelope.rs:trigger_off", "src/envelope.rs:tick"]}
{"id": "C84", "title": "Raw slice views", "statement": "The raw slice of a memory slice shows exactly the samples the slice covers, a store through it is the same as an assignment, and indices past its end are refused. The raw slice of a delay line is, after every history, the buffer it was given, with the same address and length, and its cells are those of a plain ring buffer that received the same calls; a sample stored through it is read by exactly the taps whose position plus offset reaches that cell. The raw slice of a comb or all-pass filter is likewise always the buffer it was given.", "quantifier": "every slice, index, sample and finite history of calls", "why_tests_cant": "unbounded histories and buffer lengths; a view could go stale only at particular wrap points", "anchors": ["src/memory/memory_slice.rs:as_slice", "src/memory/memory_slice.rs:as_slice_mut", "src/delay_line.rs:get_ptr_slice_mut", "src/all_pass.rs:get_ptr_slice_mut", "src/comb.rs:get_ptr_slice_mut"]}
{"id": "C85", "title": "Fractional delay taps", "statement": "After every history, the linearly interpolated tap of a delay line is the interpolation between the two neighbouring plain taps, at the fractional part of position plus offset rounded to single precision, to within 2^-21 of the larger sample, and it is exactly the plain tap when the offset is whole. The Lagrange tap is not: at a whole offset k it gives, in exact arithmetic, the tap at k-1. In f32 it follows, to within 5*2^-22 of the summed contributions plus 2^-80, the polynomial through the plain taps one before, at, one after and two after the position and through 0 in fifth place, at the fraction f counted from the first of them; so a line holding one value a everywhere reads as a*(1 + f(1-f)(2-f)(3-f)/24), up to 3.9 % too large.", "quantifier": "every finite history, every buffer of at most 2^22 samples, every finite offset up to 2^22 in magnitude, finite samples next to the tap (for the Lagrange tap in f32: all samples up to 2^30)", "why_tests_cant": "the fraction depends on the position reached by the history; all offsets", "anchors": ["src/delay_line.rs:read_lerp_wrapped_at", "src/delay_line.rs:read_lagrange_wrapped_at", "src/delay_line.rs:read_wrapped_at"]}
{"id": "C86", "title": "Panning laws in single precision", "statement": "For every amount in [-1, 1] and a square root with absolute error at most e on [0, 1], the gains stereo_pan applies are within e + 2^-24 of the equal-power gains sqrt((1-a)/2) and sqrt((1+a)/2), so their squares sum to 1 within about 3e. With an increasing square root, moving right never makes the left channel louder nor the right one quieter, and the side panned to is never the quieter one; the same for mono_pan. The two channels of mono_pan add up to the sample within 2^-22 of it, and a crossfade is within 2^-21 of the larger input of the exact mix.", "quantifier": "every amount in range, every finite sample (up to 2^126 for the crossfade), every square root routine meeting the stated contract", "why_tests_cant": "all pairs of amounts and samples; rounding near the ends; the square root routine is approximate", "anchors": ["src/stereo.rs:stereo_pan", "src/stereo.rs:mono_pan", "src/stereo.rs:crossfade_correlated_unchecked", "src/stereo.rs:equal_power_pan_unchecked", "src/stereo.rs:equal_amplitude_pan_unchecked"]}
{"id": "C87", "title": "Oscillators over whole histories", "statement": "After every history of next, set_freq, set_sr, set_phase_shift and set_wave on a new functional oscillator nothing has panicked, every sample was finite, and the next sample is that of the waveform last set (the sine if none was) at the phase last reached: the sum of all increments, each at the frequency and sample rate in force at its tick, plus the last shift. The same for the wavetable oscillator, whose sample interpolates its table at that phase, as long as it has not left the table. A phase shift of t turns in [0, 1] is exact to 2^-32 turns; outside [0, 1] it does not wrap: negative shifts and NaN count as 0, larger ones as 1.", "quantifier": "every finite history, every argument", "why_tests_cant": "unbounded histories interleaving setters and ticks; wrap-around of a 32-bit phase", "anchors": ["src/oscillator/osc_functional.rs:FunctionalOscillator", "src/oscillator/osc_wavetable.rs:WavetableOscillator", "src/oscillator/phase_accumulator.rs:SoftPhaseAccumulator"]}
{"id": "C88", "title": "Hyperbolic functions against the real ones", "statement": "With the exact exponential sinh and cosh are the hyperbolic sine and cosine. In single precision, with an exponential of relative error e <= 1/2 on [-64, 64], cosh has relative error at most e + 2^-22 there, and sinh an error of at most (e + 2^-22) cosh(x) (absolute, not relative, near 0, where the exponentials cancel); neither overflows. tanh, which is the rational function of C74, differs from the hyperbolic tangent by at most |x|^3/2 for |x| <= 1.", "quantifier": "every real x (exact part), every finite f32 up to 64 in magnitude, every exponential routine meeting the contract", "why_tests_cant": "compares with the real functions at all arguments; the exponential routine is left open", "anchors": ["src/float/math.rs:sinh", "src/float/math.rs:cosh", "src/float/math.rs:tanh"]}
{"id": "C89", "title": "What the sine integral routine computes", "statement": "si never panics, whatever its argument. A user expects the sine integral Si(x), the integral of sin(t)/t from 0 to x: si(x) is instead within 0.0023 + |x|/1000 + x^2/900 of 5/3 Si(x) for 2^-100 <= |x| <= 1024. The documentation says the smaller the argument the more accurate the result: for 2^-100 <= |x| <= 2^-15, where Si(x) is x, si(x) is x/3000 to within 2^-20 of itself.", "quantifier": "every f32; every finite f32 in the stated ranges", "why_tests_cant": "a thousand roundings and a table sine per argument, compared with an integral of a real function, at all floats", "anchors": ["src/float/math.rs:si", "src/float/integral.rs:simpsons_rule", "src/float/math.rs:sinc", "src/float/math.rs:__sinc_f32"]}
{"id": "C90", "title": "What the table sine computes", "statement": "lookup_sin of a finite f32 never panics. A user expects the sine to within the resolution of the table: the result is instead, to within 0.00051, the sine of (61425 t - 2054.5 pi)/65534, where t in [-pi/2, pi/2] is the angle with the sine of the argument, because the table is generated in integer steps of 15 and so covers only 61425 of the 65534 angle steps (its documentation warns that it is not accurate at all). The result is therefore never above the sine (up to 0.00052 and the reduction error), and for |x| <= 1/1000, whose sine is x, it lies between -0.103 and -0.09.", "quantifier": "every finite f32", "why_tests_cant": "an accuracy claim over all floats, relating a 4096-entry table and several roundings to a real function", "anchors": ["src/float/math.rs:lookup_sin", "src/oscillator/lookup_tables/mod.rs:sine_table"]}
{"id": "C91", "title": "What the band-limited rectangle computes", "statement": "The library's table for lookup_bl_rect holds 5075 finite values, each the f32 nearest to its literal. A user expects a band-limited rectangle, whose edge is Si(t)/pi: entry k is instead within 0.0000042 of 5/3 Si(k pi/100)/pi, the factor by which the library's own si is wrong. So for every finite x in (0,1) other than 0.25 and 0.75 lookup_bl_rect(x) is finite and within 0.000045 of 5/3 Si(50.74 pi q)/pi, q being the position in the quarter wave, negated in the second half; its magnitude never exceeds 0.983 and stays between 0.749 and 0.983 for x in [0.003,0.497] and [0.503,0.997].", "quantifier": "all 5075 table entries; every finite f32 in (0,1)", "why_tests_cant": "relates every float argument to a non-elementary integral", "anchors": ["src/oscillator/lookup_tables/bl_rect.rs:BANDLIMITED_RECT", "src/float/math.rs:lookup_bl_rect"]}
{"id": "C92", "title": "Frequency response of every filter design", "statement": "In exact arithmetic, whatever the state a filter starts from, it answers every sinusoid below half the sample rate in the long run with one sinusoid of the same frequency, and the ratio of their amplitudes is unique. With O = tan(w/2)/k the frequency relative to the cut-off (k the tangent polynomial the design works with) and D = (1-O^2)^2+(O/q)^2, the squared gain is 1/D for lowpass, O^4/D for highpass, 1 for allpass, (1-O^2)^2/D for notch, ((1-O^2)^2+(gO/q)^2)/D for bell and (g^2+O^4)/D for low_shelf with gain g, and the inverse for gain -g. For q at most 1/sqrt 2 the lowpass gain falls strictly with frequency (and below 1/O^2) and the highpass gain rises strictly; for larger q some frequency is amplified. A low_shelf of gain 1, expected to be neutral, leaves the level of a frequency unchanged only if q = 1/sqrt 2; for every other q it changes every frequency.", "quantifier": "all cut-offs, q, sample rates > 0, all gains, all frequencies in (0,pi), all amplitudes, phases and starting states", "why_tests_cant": "limits over infinite time for a continuum of frequencies and settings", "anchors": ["src/biquad/butterworth.rs:lowpass", "src/biquad/butterworth.rs:highpass", "src/biquad/butterworth.rs:allpass", "src/biquad/butterworth.rs:notch", "src/biquad/butterworth.rs:bell", "src/biquad/butterworth.rs:low_shelf", "src/biquad/mod.rs:process"]}
{"id": "C93", "title": "Comb filter under every setting", "statement": "For every interleaving of tick, set_dampening (in [0,15/16]) and set_feedback (within f, 1/2 <= f <= 1023/1024) with inputs within M and contents within K, where 1.01 M <= K (1-f): every output is finite and within K for ever, and within 2^-17 K/(1-f) of the output of the same comb in exact arithmetic. In exact arithmetic, after any history, a dampening in [0,1) and a feedback g with |g| < 1 make a constant input c settle at c/(1-g); with a feedback of 1 or more, which is not refused, a positive constant input grows beyond every bound.", "quantifier": "all buffers, all call histories, all settings and inputs in the stated ranges", "why_tests_cant": "unbounded histories; limits; accumulation of rounding errors over infinite time", "anchors": ["src/comb.rs:tick", "src/comb.rs:set_dampening", "src/comb.rs:set_feedback"]}
{"id": "C94", "title": "All-pass unit against exact arithmetic", "statement": "With inputs within M and contents within 2.01 M (M between 2^-80 and 2^90) every output of AllPass is finite and within M/2000000 of the output of the same unit in exact arithmetic, for ever: rounding errors do not accumulate. In exact arithmetic a constant input comes out unchanged in the long run, whatever was processed before.", "quantifier": "all buffers, all input sequences, all levels M in the range", "why_tests_cant": "accumulation of rounding errors over infinite time; limits", "anchors": ["src/all_pass.rs:tick"]}
{"id": "C95", "title": "Biquad in f32 against exact arithmetic", "statement": "Let A = 1+|a1|+|a2|, B = |b0|+|b1|+|b2| and let G bound the sum of the magnitudes of the impulse response of the recursive part. If A*G <= 2^19 and the inputs are within M, the f32 biquad started from rest gives, for ever, finite outputs within 2*G*B*M that differ from the output of the exact filter with the same coefficients by at most A*G/500000 of G*B*M: rounding errors neither accumulate nor start an oscillation. G = 1/((1-|u|)(1-|v|)) for real poles u, v and G = 1/(1-sqrt a2)^2 for a complex pair, so every stable filter has a G.", "quantifier": "all finite coefficients meeting the gain condition, all input sequences within M, all lengths", "why_tests_cant": "accumulation of rounding errors over infinite time, for every input and every filter", "anchors": ["src/biquad/mod.rs:Biquad::process"]}
{"id": "C96", "title": "Filter designs computed in f32", "statement": "With k/q and k^2 as they come out of the tangent in f32: every coefficient of lowpass, highpass, allpass and notch is finite and within 2^-20 of the textbook value; if neither term is below 2^-21 of the denominator 1+k/q+k^2 and that is at most 2^21, the rounded coefficients of every design (bell and low_shelf with the terms of their own denominator) still have both poles strictly inside the unit circle; and the rounded low-pass passes a constant with a gain within 10*2^-24*(1+k/q+k^2)/k^2 of 1. Not so at very low cut-offs: whenever k^2 <= 2^-27 (below about 1.3 Hz at 48 kHz) and k/q <= 1/4 the rounded low-pass is unstable or multiplies constants by at most 0.51.", "quantifier": "all f32 fc, q, sr, gain; all tangent and square-root implementations (oracles)", "why_tests_cant": "infinitely many parameters; stability and long-run gain quantify over infinite time", "anchors": ["src/biquad/butterworth.rs:lowpass", "src/biquad/butterworth.rs:highpass", "src/biquad/butterworth.rs:allpass", "src/biquad/butterworth.rs:notch", "src/biquad/butterworth.rs:bell", "src/biquad/butterworth.rs:low_shelf"]}
{"id": "C97", "title": "fast_tan and the filter designs in f32 against exact arithmetic", "statement": "If the external integer power is accurate to a relative 2^-20 on [-2,2] (2^-130 absolute when tiny), then fast_tan in f32 is finite and within a relative 2^-19 of its polynomial on [-2,2], hence within |x|^17/1000 + 2^-19 tan|x| of tan on [-1,1]. With 1/8 <= q <= 1024 and pi*fc/sr between 2^-30 and 3/2, k/q and k^2 come out within a relative 2^-18 and 2^-17; for pi*fc/sr of at least 2^-10 (15 Hz at 48 kHz) every coefficient of lowpass, highpass, allpass and notch is within 2^-15 of the same design in exact arithmetic and the filters are stable. Not so below 2^-14 (0.93 Hz at 48 kHz): every such low-pass is unstable or multiplies constants by at most 0.51.", "quantifier": "all finite f32 x; all f32 fc, q, sr in the stated ranges; all integer power implementations meeting the accuracy contract", "why_tests_cant": "infinitely many parameters; stability quantifies over infinite time; the accuracy of the external power is not under the control of the crate", "anchors": ["src/float/math.rs:fast_tan", "src/biquad/butterworth.rs:setup_coeffs", "src/biquad/butterworth.rs:lowpass", "src/biquad/butterworth.rs:highpass", "src/biquad/butterworth.rs:allpass", "src/biquad/butterworth.rs:notch"]}
{"id": "C98", "title": "Frequency response of the comb filter and of the AllPass unit", "statement": "In exact arithmetic, whatever was done with it before, a comb over n samples set to a dampening d in [0,1) and a feedback g with |g| < 1 answers every sinusoid of angular frequency w in the long run with a sinusoid of the same frequency, amplified by |1 - d z| / |1 - d z - g (1-d) z^n| with z = e^(-iw): always between 1/(1+|g|) and 1/(1-|g|). Without dampening its peaks 1/(1-g) lie at the multiples of sr/n and its notches 1/(1+g) half way between; with dampening the peaks fall as the frequency rises. AllPass over n samples amplifies a sinusoid by sqrt((13 - 12 cos nw) / (5 - 4 cos nw)): at least 1, at most 5/3, and exactly 5/3 at sr/(2n), so it is not an all-pass filter.", "quantifier": "all buffers of at least one sample, all earlier calls, all settings in the stated ranges, all sinusoids", "why_tests_cant": "a response in the long run over infinitely many frequencies, settings and buffer lengths", "anchors": ["src/comb.rs:tick", "src/comb.rs:set_dampening", "src/comb.rs:set_feedback", "src/all_pass.rs:tick"]}
{"id": "C99", "title": "Lagrange interpolation in single precision", "statement": "lagrange over 1 to 16 finite samples of magnitude up to 2^30, at a finite position between the first and the last, returns a finite value within n*2^-22 times the summed magnitudes of all contributions, plus 2^-80, of the polynomial of degree below n through the samples; at a node that is the sample there to within n*2^-22 of itself. lagrange_only_4_elements computes bit for bit the same as lagrange on four samples, and is within 2^-19*M + 2^-80 of the cubic through samples of magnitude up to M. lagrange_wrapped(x, w) for w in 2..=16 and |x| < 2^23 follows in the same sense the polynomial through the w samples from w/2-1 before floor(x) (the last one replaced by 0 for odd w), taken at the fraction of x: at a whole position i it returns, to within w*2^-22, the sample at i-(w/2-1), not the one at i.", "quantifier": "all sample lists, buffers, positions and window sizes in the stated ranges, both build settings, every NaN policy", "why_tests_cant": "all samples and positions; the error of some hundred roundings", "anchors": ["src/float/interpolation.rs:lagrange", "src/float/interpolation.rs:lagrange_only_4_elements", "src/memory/memory_slice.rs:MemorySlice::lagrange_wrapped"]}
{"id": "C100", "title": "Decibel conversions in single precision", "statement": "With a logarithm whose absolute error is at most e <= 1, the decibels of every positive finite f32 ratio are finite and within 20e + 2^-15 of 20*log10(ratio), from all three conversions. With a power of ten whose relative error is at most p <= 1 on exponents from -37 to 37, to_volt_ratio of a level from -739 to 739 dB is finite and within a relative p + 2^-16 of 10^(d/20). A ratio from 1e-36 to 1e36 comes back from decibels within a relative p + 4(e + 2^-18). Neither conversion reverses an order if the external function behind it does not.", "quantifier": "all positive finite f32 ratios, all levels in the stated range, every logarithm and power meeting the contracts, every NaN policy", "why_tests_cant": "all floats, and every maths library with the stated accuracy", "anchors": ["src/decibels.rs:Decibels::to_decibels_unchecked", "src/decibels.rs:Decibels::to_decibels", "src/decibels.rs:Decibels::to_decibels_checked", "src/decibels.rs:Decibels::to_volt_ratio"]}
{"id": "C101", "title": "Bell and low-shelf designs in single precision", "statement": "For cut-off frequencies from about 3e-10 to 0.47 of the sample rate (the argument pi*fc/sr of the tangent from 2^-30 to 3/2), q from 1/8 to 1024 and a gain of magnitude between 1/G and G for some G in [1, 1024], boosting or cutting, every coefficient of bell computed in f32 is finite and within G*2^-14 of the coefficient of the same design in exact arithmetic, and every coefficient of low_shelf within G*2^-13 (given an external square root good to a relative 2^-20).", "quantifier": "all cut-off frequencies, qualities, sample rates and gains in the stated ranges, every integer power and square root meeting the contracts, every NaN policy", "why_tests_cant": "a four-dimensional range of floats and every maths library with the stated accuracy", "anchors": ["src/biquad/butterworth.rs:bell", "src/biquad/butterworth.rs:bell_boost_only", "src/biquad/butterworth.rs:bell_cut_only", "src/biquad/butterworth.rs:low_shelf", "src/biquad/butterworth.rs:low_shelf_boost_only", "src/biquad/butterworth.rs:low_shelf_cut_only"]}
{"id": "C102", "title": "Any schedule of slice, delay-line, comb and all-pass calls with buffer changes", "statement": "Any number of slices, delay lines, combs and all-passes over separate buffers in one memory, called in any order and handed other buffers while they run, return exactly what plain lists give: a buffer change keeps the unit's position and (for a comb) its filter state, feedback and dampening, and takes the new buffer as it is; get and assign outside a slice are refused. Every buffer ends with the expected samples and no other memory changes, as long as no unit stands past the end of its buffer when used and tap offsets do not overflow; with buffers of one length that always holds, so no schedule panics or is undefined.", "quantifier": "all sets of units and buffers, all schedules of gets, assigns, reads, taps, writes, ticks, parameter changes and buffer changes, all samples, every build mode and NaN policy", "why_tests_cant": "unbounded interleavings of calls over unbounded memory", "anchors": ["src/delay_line.rs:change_buffer", "src/comb.rs:change_buffer", "src/all_pass.rs:change_buffer", "src/comb.rs:tick", "src/all_pass.rs:tick", "src/delay_line.rs:write_and_advance", "src/delay_line.rs:read_wrapped_at", "src/memory/memory_slice.rs:get", "src/memory/memory_slice.rs:assign"]}
{"id": "C103", "title": "Units do not disturb one another", "statement": "A slice, delay line, comb or all-pass whose buffers no other unit uses returns, in any interleaving with any calls on any other units, exactly what it returns when called alone, and ends in the same state with the same samples in its buffers.", "quantifier": "all sets of units and buffers, all schedules, every choice of the unit, every build mode and NaN policy", "why_tests_cant": "every interleaving of every set of other calls must be harmless", "anchors": ["src/delay_line.rs:DelayLine", "src/comb.rs:Comb", "src/all_pass.rs:AllPass"]}
{"id": "C104", "title": "Threads: separate buffers never race, a shared slice does", "statement": "Threads that each call their own slices, delay lines, combs and all-passes over their own buffers never race, in any interleaving of their single memory accesses: every thread can always make its next access until it has finished, it finishes with the replies and buffer contents it would have alone, and memory outside the buffers does not change. The documented 'This data structure is thread-safe!' does not hold beyond that: slices are Copy, Send and Sync, and for every non-empty slice one thread assigning and one reading through copies of it start in a data race; two all-passes over one buffer in two threads can both return what only the first of two calls in a row returns.", "quantifier": "all numbers of threads, units, buffers and calls, all interleavings of single loads and stores (sequentially consistent memory), all samples, every build mode and NaN policy", "why_tests_cant": "the number of interleavings is unbounded and a race need not show in any one of them", "anchors": ["src/memory/memory_slice.rs:Sync", "src/memory/mod.rs:Send", "src/memory/memory_slice.rs:get", "src/memory/memory_slice.rs:assign", "src/delay_line.rs:DelayLine", "src/all_pass.rs:tick", "src/comb.rs:tick"]}
{"id": "C105", "title": "A slice is valid exactly as long as its buffer", "statement": "A slice made over any part of a buffer reads exactly that part, index by index, and refuses every index past it. While the buffer behind a slice lives, the slice keeps reading the same samples, whatever other buffers are made, dropped or written. from_slice and from_slice_mut are safe functions and drop the lifetime of their argument, so a slice can outlive its buffer; from then on every index that passes the bounds check of get or assign, every wrapped read, and every read, write or tick of a unit over the slice, wherever it stands, is undefined behaviour, while the slice still reports its old length.", "quantifier": "all memories, slices and histories of allocations, drops and writes before and after the drop, all in-range indices", "why_tests_cant": "a read through a dangling pointer often returns the old sample, so no run shows the defect reliably", "anchors": ["src/memory/memory_slice.rs:from_slice", "src/memory/memory_slice.rs:from_slice_mut", "src/memory/memory_slice.rs:get", "src/memory/memory_slice.rs:assign"]}
{"id": "C106", "title": "Oscillators over any phase accumulator", "statement": "PhaseAccumulator is a public trait. Over any implementation of it, whatever its state and whether or not its functions panic, an oscillator does what the accumulator alone does under the same calls: it asks for exactly one normalised phase per sample, hands frequencies and sample rates on unchanged and a phase shift as the nearest lower 32-bit phase (saturated outside [0,1]), panics exactly if the accumulator panics, and keeps nothing else but the waveform. The sine is finite and in range whatever phase it is given; for phases v in [0,1] it is within 0.00016 of sin(2 pi v), the sawtooth is 2v-1 rounded once, the triangle is within 2^-22 of the ideal one, the rectangle is -1 below one half, 1 from there on and 3 at v = 1; a wavetable is interpolated at n v, and reads past its end as soon as n v reaches the last sample. With the crate's own accumulator these are the oscillators of the other properties.", "quantifier": "all implementations of the trait (any state type, any outcome of each call), all histories of calls, all tables of up to 2^24 samples, every f32, every build mode and NaN policy", "why_tests_cant": "it ranges over implementations that users write themselves and over unbounded histories of calls", "anchors": ["src/oscillator/phase_accumulator.rs:PhaseAccumulator", "src/oscillator/osc_functional.rs:FunctionalOscillator", "src/oscillator/osc_wavetable.rs:WavetableOscillator"]}
{"id": "C107", "title": "A filter designed and run in f32 stays near the ideal filter for ever", "statement": "Compute a low-pass, high-pass, all-pass or notch in f32 (q from 1/8 to 1024, cut-off from 15 Hz to 22.9 kHz at 48 kHz) and process any samples with it: every output is finite and within an explicit, time-independent distance of what the same design does in exact arithmetic. The distance is proportional to the size of the samples and built from the ringing bound G = D^2 / min((k/q)^2, 4k^2) of the ideal filter (D = 1+k/q+k^2), the sum of its feed-forward coefficients and the error of the computed coefficients, at most 2^-20 (1 + 33 w) with w the share of k/q + k^2 in D. The same holds for bells and low shelves, boosting or cutting by a gain of magnitude between 1/L and L, with the terms of their own denominator and coefficient errors L*2^-14 and L*2^-13, and for any f32 coefficients near those of any ideal filter of known ringing. For a low-pass at 1 kHz, 48 kHz and q = 1 the distance is below 1/30 of full scale, for a bell of gain 2 and a low shelf of gain -2 at 12 kHz below 1/20, for every input.", "quantifier": "all cut-offs, qualities, sample rates and gains in the stated range for which ringing and coefficient error are small enough (error times G at most 1/16, 1/32 with a gain), all sequences of finite f32 samples of any length, all NaN policies, every integer power and square root within the stated accuracy", "why_tests_cant": "errors of the coefficients and of every sample accumulate through the feedback over unbounded time, and the worst input is not known", "anchors": ["src/biquad/mod.rs:Biquad::process", "src/biquad/butterworth.rs:lowpass", "src/biquad/butterworth.rs:highpass", "src/biquad/butterworth.rs:allpass", "src/biquad/butterworth.rs:notch"]}
{"id": "C108", "title": "Copies of a unit share its samples but not its position", "statement": "DelayLine, Comb and AllPass are Copy. After any history, a copy has no history of its own: if the line and its copy are used alternately, each reading and then writing one sample, the copy reads back at once what was just written through the line and the line reads what was written through the copy one buffer length ago; a copied all-pass or comb likewise hears the other's input without any delay. Used on purpose, a copy is a read head: write k samples through the line (k below the buffer length) and then write through the line and read and advance the copy in turn, and together they are an exact delay of k samples for ever.", "quantifier": "all buffers, all histories before the copy, all delays below the buffer length, all sequences of samples of any length and type, every build", "why_tests_cant": "histories and buffers are unbounded", "anchors": ["src/delay_line.rs:DelayLine (derive Clone, Copy)", "src/comb.rs:Comb (derive Clone, Copy)", "src/all_pass.rs:AllPass (derive Clone, Copy)"]}
{"id": "C109", "title": "A unit past the end of its buffer runs through the memory behind it", "statement": "change_buffer with a buffer no longer than the position leaves a delay line, comb or all-pass past its end. When the buffer is part of a larger allocation nothing stops it, and its position never wraps again: the m-th read returns, and the m-th write overwrites, the m-th sample behind the position, none of which belongs to the buffer, exactly as if the unit had been given the rest of the allocation; nothing else changes. When the allocation is used up, the next call is undefined behaviour. The taps (read_wrapped_at) of such a delay line do stay in its buffer but are frozen: whatever is called, the buffer keeps the samples it had, and a tap returns one of them chosen by position plus offset modulo the length.", "quantifier": "all memories, buffers, positions past the end, sequences of calls of any length and sample type, every build", "why_tests_cant": "depends on the memory layout around the buffer and on unbounded histories", "anchors": ["src/delay_line.rs:DelayLine::change_buffer", "src/delay_line.rs:DelayLine::write_and_advance", "src/comb.rs:Comb::change_buffer", "src/all_pass.rs:AllPass::change_buffer", "src/delay_line.rs:DelayLine::read_wrapped_at"]}
{"id": "C110", "title": "Changing the coefficients of a running filter", "statement": "New coefficients may be installed before any sample. Every sample then acts, also on the two outputs after it, through the coefficients that were in force when it was processed. For every finite choice of stable settings there is a number of samples such that holding each new setting that long keeps the output bounded, whatever the input. Changing faster is not safe: let k be the tangent of half the cut-off angle and t = q(k - 1/k). If two low-pass, high-pass, all-pass or notch designs are installed in turn, one before each sample, a unit impulse makes the output exceed every bound when t*t' < -1 (one below, the other above a quarter of the sample rate), although each design is stable by itself; the output stays bounded when t*t' > -1. Settings with |t| <= th < 1 may be changed in any way and at any time. In f32 the output of any schedule stays finite for ever and near the exact output whenever in exact arithmetic the recursive part of the schedule amplifies no signal more than G times: with A and B the feedback and feed-forward weights of the largest coefficients, A G <= 524288 and inputs within M, the error is at most A G (G B M) / 500000. This covers every schedule with small feedback, and all schedules that hold each new setting long enough: if every setting rings by G in total and peaks at P, such a schedule amplifies nothing more than G + P(|a1| + 2|a2|)(G + 1) times. In f32, low-passes of 1 kHz and 20 kHz at 48 kHz and q = 1 in turn make every output after 145 samples infinite or NaN.", "quantifier": "all schedules of coefficients, all bounded inputs, all positive cut-offs, q and sample rates, all times; in f32 all schedules of finite coefficients with a bounded exact gain (the overflow clause: all times and NaN choices for the one pair of settings)", "why_tests_cant": "a test runs one schedule for a finite time; stability under changes is a statement about every schedule and for ever", "anchors": ["src/biquad/mod.rs:Biquad::process", "src/biquad/mod.rs:Biquad.coeffs", "src/biquad/butterworth.rs:Butterworth"]}
{"id": "C111", "title": "Processors wired in series and in parallel", "statement": "A program of delay lines, combs, all-passes, biquads and gains over separate buffers, wired in series and in parallel and ticked sample by sample, computes the composition of what its parts do to whole signals, and writes only its buffers; with a shared buffer this is false (two delay lines over one buffer do not delay). In f32, levels add up along the wiring: when every part respects the level rule of its kind, no output for any input within the input level is infinite, NaN or beyond the output level. The f32 network stays, for ever, within a bound of the same network in exact arithmetic: the errors of its parts, each enlarged by the gain of the parts behind it, plus the total gain times the error of the input. In exact arithmetic a network that starts silent obeys superposition, shifting the input shifts the output, and two networks in series give the same output in either order.", "quantifier": "all finite wirings, all buffer lengths and contents, all inputs, any number of samples, all number types for the first clause", "why_tests_cant": "the wirings and the sample histories are unbounded; interference through shared memory shows only for some layouts", "anchors": ["src/delay_line.rs:DelayLine", "src/comb.rs:Comb::tick", "src/all_pass.rs:AllPass::tick", "src/biquad/mod.rs:Biquad::process", "src/memory/memory_slice.rs:MemorySlice"]}
{"id": "C112", "title": "A voice: oscillator times envelope", "statement": "For a program that multiplies the oscillator's next sample by the envelope's next value, in every history of samples, envelope calls (parameters in the ranges of C48) and oscillator calls (any frequency, phase shift, sample rate and waveform): no call panics and every sample is finite and within 1 if only sawtooth and triangle are chosen, within 2 if the sine is, within 4 if the rectangle is; a network of C111 behind it keeps its output level. While the envelope is idle every sample is zero until trigger_on, whatever is set meanwhile. After trigger_off, left alone, every sample is zero once the release time has passed, even if the oscillator is retuned.", "quantifier": "all histories of any length, all frequencies and phases including NaN and infinities, all waveforms, all networks with levels", "why_tests_cant": "histories are unbounded and interleave two stateful units; a test hears one of them", "anchors": ["src/oscillator/osc_functional.rs:FunctionalOscillator::next", "src/envelope.rs:AudioRateADSR::tick", "src/envelope.rs:AudioRateADSR::trigger_off"]}
{"id": "C113", "title": "What remains in f32 once the input has stopped", "statement": "Left without input, an undamped comb (dampening 0, feedback g within 1) sends the content of its buffer round, multiplied by g and rounded to nearest at every pass; an all-pass does the same with 1/2. With a gain of at most 1/2 in magnitude every output is exactly zero after 278 passes; with more, a non-zero sample never becomes zero. With dampening the comb need not fall silent at all: for every setting in [0, 1] and whole numbers p, q, r solving three rounding inequalities, a buffer of samples at least p 2^-149 (the first at least r 2^-149) keeps every output at least p 2^-149 for ever; the default settings do so with p = 2. But after any history of bounded inputs and settings, a comb with dampening at most 15/16 and feedback within e (1/2 <= e <= 1023/1024) is in the end within 40 2^-149 / (1 - e) of zero. A stable biquad is in the end within 3 G 2^-149 of zero, where G is its total ringing, but need not reach zero: the state p 2^-149 repeats itself for ever when the nearest whole numbers to a1 p and a2 p add up to -p, and a click through the 2 kHz low-pass with q = 1 at 48 kHz ends in such a state, so the click never dies away.", "quantifier": "all buffer lengths and contents, all settings in the stated ranges, all numbers of samples; for the biquad all finite coefficients with a ringing bound and all bounded inputs that stop", "why_tests_cant": "\"for ever\" and \"never zero\" are claims about unbounded runs, and whether a tail dies depends on rounding at the very bottom of the f32 range", "anchors": ["src/comb.rs:Comb::tick", "src/all_pass.rs:AllPass::tick", "src/biquad/mod.rs:Biquad::process"]}
{"id": "C114", "title": "A network dies away with its input, and a released note with everything behind it", "statement": "For every wiring of delays, combs, all-passes, biquads, gains, series and mixes whose parts respect their levels there are numbers a and b, computed from the settings and the wiring alone, such that whenever the input from some sample on stays within D, the output in f32 from some sample on stays finite and within a D + b 2^-149. With no input left only b 2^-149 remains (200 * 2^-149 for the reverberator of the examples). In particular an oscillator times an envelope in front of such a network: after any history of samples, triggers and setter calls that leaves the envelope in its release stage, with a release step above 2^-25, the output of the whole in the end stays within b 2^-149, whatever is still done to the oscillator.", "quantifier": "all wirings, buffer lengths and contents, settings and levels; all endless inputs within the level; all histories of calls before the release and all endless sequences of oscillator calls after it", "why_tests_cant": "a test listens for a bounded time; that the output stays down for ever, for every wiring and history, is a statement about unbounded runs and about rounding near zero", "anchors": ["src/comb.rs:Comb::tick", "src/all_pass.rs:AllPass::tick", "src/delay_line.rs:DelayLine::write_and_advance", "src/biquad/mod.rs:Biquad::process", "src/envelope.rs:AudioRateADSR::tick", "src/oscillator/osc_functional.rs:FunctionalOscillator::next"]}
{"id": "C115", "title": "Settings of a network may be changed while it runs", "statement": "Take any wiring of delays, combs, all-passes, biquads and gains over separate buffers, and any history of samples interleaved with calls that set the dampening or feedback of a comb, the coefficients of a biquad or a gain, at any part and at any time. The program never panics, writes only its own buffers and gives one output per sample; the output is the composition of its parts, each of which sees its own input and only the calls made to itself. With no calls it is the network of C111. In f32 every output is finite and within the level of the wiring, provided the settings respect their limits: dampenings in [0, 15/16], feedbacks within 1 - 2^-j, gains within 2^k, and for each biquad a sequence of coefficients whose exact recursive part has a bounded gain (C110).", "quantifier": "all wirings, buffer lengths and contents, pointer widths and overflow modes, all histories of samples and setter calls of any length", "why_tests_cant": "the wirings and the interleavings of samples and calls are unbounded; a test plays one of them for a finite time", "anchors": ["src/comb.rs:Comb::set_dampening", "src/comb.rs:Comb::set_feedback", "src/comb.rs:Comb::tick", "src/all_pass.rs:AllPass::tick", "src/delay_line.rs:DelayLine::write_and_advance", "src/biquad/mod.rs:Biquad.coeffs", "src/biquad/mod.rs:Biquad::process"]}
{"id": "C116", "title": "A comb filter dies away at a predictable rate", "statement": "After any history of inputs and settings within bounds, once the dampening p and the feedback g are left alone and the input stops, the output of a comb of n samples falls by a factor rho every sample, for every rho with |g| (1 - p) <= rho^n (1 - p / rho); it does not fall faster than the rho that makes this an equality. 1 - (1 - |g|) / (n + 1 / (1 - p)) always is such a factor, so the reverberation time (sixty decibels) is at most n + 7 (n + 1 / (1 - p)) / (1 - |g|) samples. In f32 the output obeys the same law down to a floor of 2^-17 K / (1 - f), K being the level before and f the largest feedback.", "quantifier": "all buffer lengths and contents, pointer widths and overflow modes, all histories of ticks and setter calls within bounds, all dampenings in [0, 1) (f32: up to 15/16) and feedbacks below 1 in magnitude, all numbers of silent samples", "why_tests_cant": "the decay has to hold after every history and at every later sample, for a continuum of settings", "anchors": ["src/comb.rs:Comb::tick", "src/comb.rs:Comb::set_dampening", "src/comb.rs:Comb::set_feedback"]}
{"id": "C117", "title": "A biquad rings down at a predictable rate", "statement": "Whatever a biquad holds when its input stops: if its poles lie within the distance r of zero, every later pair of outputs has fallen by r per sample from the first pair, up to a fixed factor given by the coefficients. The rate is exact: the energy y(n+1)^2 + a1 y(n+1) y(n) + a2 y(n)^2 is multiplied by a2 at every sample, so a resonant filter stays between two multiples of sqrt(a2)^n. Low-pass, high-pass, all-pass, notch, and boosting bell and low shelf with a quality above 1/2 are resonant with a2 = (1 - k/q + k^2) / (1 + k/q + k^2), k being the design's tangent. After inputs within M the tail starts from a level proportional to M; in f32 it obeys the same law down to the accuracy of C95.", "quantifier": "all coefficients with poles within r, all states of the filter, all input histories within M and all stopping times, all numbers of silent samples; all cut-offs, sample rates, qualities above 1/2 and boosts", "why_tests_cant": "a continuum of filters and states and unboundedly many later samples", "anchors": ["src/biquad/mod.rs:Biquad::process", "src/biquad/butterworth.rs:lowpass", "src/biquad/butterworth.rs:highpass", "src/biquad/butterworth.rs:allpass", "src/biquad/butterworth.rs:notch", "src/biquad/butterworth.rs:bell", "src/biquad/butterworth.rs:low_shelf"]}
{"id": "C118", "title": "A network of processors dies away at a predictable rate", "statement": "Take any wiring of delays, combs, all-passes, biquads and gains over separate buffers, whatever the buffers hold, with comb feedbacks below 1 in size, dampenings in [0, 1) and filters with their poles inside the unit circle. There is a rate below 1, given by the wiring alone, such that after any inputs within a level M the output is within a constant times rate^k after k samples of silence; the constant depends on M and the wiring, not on the input or its length. For a given rate the constant can be read off the wiring part by part. In f32 the output falls in the same way down to the accuracy of C111.", "quantifier": "all wirings of stable parts, buffer lengths and contents, pointer widths and overflow modes, all input histories within M of any length, all lengths of silence", "why_tests_cant": "the wirings, the inputs and the lengths of silence are unbounded; a test plays one of them for a finite time", "anchors": ["src/comb.rs:Comb::tick", "src/all_pass.rs:AllPass::tick", "src/delay_line.rs:DelayLine::write_and_advance", "src/biquad/mod.rs:Biquad::process"]}
{"id": "C119", "title": "In f32 a network whose settings are moved follows exact arithmetic", "statement": "Play the same history of samples and setter calls (C115) to a network in f32 and to the same network in exact arithmetic: as long as the settings respect their limits the two outputs differ at every sample by at most an error read off the wiring part by part, however long the history is. If the two are given samples that differ by at most D, the outputs differ by at most that error plus D times a factor read off the wiring. Without calls the error and the factor are those of C111.", "quantifier": "all wirings, buffer lengths and contents, pointer widths and overflow modes, NaN choices, all histories of samples and setter calls of any length within the limits", "why_tests_cant": "rounding errors pile up over unbounded histories and unbounded interleavings of samples and calls, against a reference no test can compute exactly", "anchors": ["src/comb.rs:Comb::set_dampening", "src/comb.rs:Comb::set_feedback", "src/comb.rs:Comb::tick", "src/all_pass.rs:AllPass::tick", "src/delay_line.rs:DelayLine::write_and_advance", "src/biquad/mod.rs:Biquad.coeffs", "src/biquad/mod.rs:Biquad::process"]}
{"id": "C120", "title": "A network dies away once its input is silent even while its settings keep being moved", "statement": "Play any history of samples and setter calls (C115) whose samples are silent from some time on. In exact arithmetic, if the settings respect their limits, the output falls from that time on by a factor rho every sample, whatever calls are still made; rho and the starting level are read off the wiring part by part. If the limits on dampening and feedback are below 1 and every biquad setting has |a1| + |a2| <= s^2 with s < 1, there is one rho below 1 for all histories, and one level for each level of the input. In f32 the same holds down to the accuracy of C119. Without calls the rates are those of C118.", "quantifier": "all wirings, buffer lengths and contents, pointer widths and overflow modes, NaN choices, all histories of samples and setter calls of any length within the limits, all lengths of the silence", "why_tests_cant": "a tail under arbitrary interleavings of calls is an unbounded family of unbounded runs; moving between settings that each die away can still make a filter grow", "anchors": ["src/comb.rs:Comb::set_dampening", "src/comb.rs:Comb::set_feedback", "src/comb.rs:Comb::tick", "src/all_pass.rs:AllPass::tick", "src/delay_line.rs:DelayLine::write_and_advance", "src/biquad/mod.rs:Biquad.coeffs", "src/biquad/mod.rs:Biquad::process"]}
{"id": "C121", "title": "Setter calls to a running network obey simple laws", "statement": "For a network of processors with setter calls between its samples (C115), in every arithmetic and for every state: calls to different parts, or to different setters of one part, may be made in either order; of two calls of one setter with no sample in between only the last counts; later samples and calls never change earlier outputs, and the future depends on the past only through the state of the processors and their buffers. In exact arithmetic, from silent buffers and with the same calls between the samples, the outputs for a*x + b*y are a times those for x plus b times those for y, and a history that starts k samples later gives the same outputs k samples later; calls made while the network is still silent act as if they had all been made before the first sample. What a user might expect from C111 fails: two parts in series may not be swapped once a setting is moved.", "quantifier": "all wirings, states, memory contents, histories of samples and calls of any length, arithmetics, pointer widths and overflow modes; for superposition all signals, factors and call sequences", "why_tests_cant": "the interleavings of samples and calls are unbounded and the laws compare pairs of runs", "anchors": ["src/comb.rs:Comb::set_dampening", "src/comb.rs:Comb::set_feedback", "src/comb.rs:Comb::tick", "src/all_pass.rs:AllPass::tick", "src/delay_line.rs:DelayLine::write_and_advance", "src/biquad/mod.rs:Biquad.coeffs", "src/biquad/mod.rs:Biquad::process"]}
{"id": "C122", "title": "An instrument can be played and adjusted at will", "statement": "Take a voice (an oscillator times an envelope, C112) whose every sample goes at once through a network of effects, and any interleaving of samples, envelope calls (trigger, release, parameters), oscillator calls (frequency, phase, waveform, sample rate) and setter calls to the effects. Playing it sample by sample gives what running the voice first and then the network would give, with the calls in the same places. Within the limits of each part nothing ever panics and every output sample is finite and within a level read off the wiring. Once a note is released and left alone, after the length of the release the output falls by one factor every sample, down to the accuracy of the arithmetic, whatever was played before and whatever is still done to the oscillator and the effects. An instrument that has never been triggered and whose buffers hold zeros gives zeros only, whatever is done to the oscillator, the envelope parameters and the effects.", "quantifier": "all interleavings of samples and calls of any length within the limits, all wirings, buffer lengths and contents, pointer widths and overflow modes, NaN choices, all floor and power routines that meet their contracts", "why_tests_cant": "a performance is an unbounded interleaving of calls to several objects with unbounded state", "anchors": ["src/envelope.rs:AudioRateADSR::tick", "src/envelope.rs:AudioRateADSR::trigger_off", "src/oscillator/osc_functional.rs:FunctionalOscillator::next", "src/comb.rs:Comb::tick", "src/comb.rs:Comb::set_dampening", "src/comb.rs:Comb::set_feedback", "src/all_pass.rs:AllPass::tick", "src/delay_line.rs:DelayLine::write_and_advance", "src/biquad/mod.rs:Biquad::process"]}

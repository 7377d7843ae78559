{"id": "C01", "title": "Planned DCT1 computes the DCT1 of its buffer", "statement": "In exact arithmetic, the instance returned by plan_dct1(n) (whatever was planned before on that planner), when process_dct1 is called on a buffer x of length n, returns normally and leaves X[k] = x[0]/2 + sum_{0<i<n-1} x[i] cos(pi k i/(n-1)) + x[n-1] cos(pi k)/2 in cell k for every k < n, unnormalised.", "quantifier": "every transform size n >= 2, every input vector, every earlier planner history, every FFT implementation that computes the forward DFT", "why_tests_cant": "the algorithm chosen and its index arithmetic depend on the size (butterflies, split radix, FFT conversions, naive); tests sample sizes below 20 with one random vector each", "anchors": ["src/plan.rs:plan_dct1", "src/algorithm/type1_naive.rs:Dct1Naive", "src/algorithm/type1_convert_to_fft.rs:Dct1ConvertToFft"]}
{"id": "C02", "title": "Planned DCT2 computes the DCT2 of its buffer", "statement": "In exact arithmetic, the instance returned by plan_dct2(n) (whatever was planned before on that planner), when process_dct2 is called on a buffer x of length n, returns normally and leaves X[k] = sum_{i<n} x[i] cos(pi k (i+1/2)/n) in cell k for every k < n, unnormalised.", "quantifier": "every transform size n >= 1, every input vector, every earlier planner history, every FFT implementation that computes the forward DFT", "why_tests_cant": "the algorithm chosen and its index arithmetic depend on the size (butterflies, split radix, FFT conversions, naive); tests sample sizes below 20 with one random vector each", "anchors": ["src/plan.rs:plan_dct2", "src/algorithm/type2and3_butterflies.rs", "src/algorithm/type2and3_splitradix.rs", "src/algorithm/type2and3_convert_to_fft.rs", "src/algorithm/type2and3_naive.rs"]}
{"id": "C03", "title": "Planned DCT3 computes the DCT3 of its buffer", "statement": "In exact arithmetic, the instance returned by plan_dct3(n) (whatever was planned before on that planner), when process_dct3 is called on a buffer x of length n, returns normally and leaves X[k] = x[0]/2 + sum_{0<i<n} x[i] cos(pi (k+1/2) i/n) in cell k for every k < n, unnormalised.", "quantifier": "every transform size n >= 1, every input vector, every earlier planner history, every FFT implementation that computes the forward DFT", "why_tests_cant": "the algorithm chosen and its index arithmetic depend on the size (butterflies, split radix, FFT conversions, naive); tests sample sizes below 20 with one random vector each", "anchors": ["src/plan.rs:plan_dct3", "src/algorithm/type2and3_butterflies.rs", "src/algorithm/type2and3_splitradix.rs", "src/algorithm/type2and3_convert_to_fft.rs", "src/algorithm/type2and3_naive.rs"]}
{"id": "C04", "title": "Planned DCT4 computes the DCT4 of its buffer", "statement": "In exact arithmetic, the instance returned by plan_dct4(n) (whatever was planned before on that planner), when process_dct4 is called on a buffer x of length n, returns normally and leaves X[k] = sum_{i<n} x[i] cos(pi (k+1/2)(i+1/2)/n) in cell k for every k < n, unnormalised.", "quantifier": "every transform size n >= 1, every input vector, every earlier planner history, every FFT implementation that computes the forward DFT", "why_tests_cant": "the algorithm chosen and its index arithmetic depend on the size (butterflies, split radix, FFT conversions, naive); tests sample sizes below 20 with one random vector each", "anchors": ["src/plan.rs:plan_dct4", "src/algorithm/type4_naive.rs", "src/algorithm/type4_convert_to_fft.rs", "src/algorithm/type4_convert_to_type3.rs"]}
{"id": "C05", "title": "Planned DCT5 computes the DCT5 of its buffer", "statement": "In exact arithmetic, the instance returned by plan_dct5(n) (whatever was planned before on that planner), when process_dct5 is called on a buffer x of length n, returns normally and leaves X[k] = x[0]/2 + sum_{0<i<n} x[i] cos(pi k i/(n-1/2)) in cell k for every k < n, unnormalised.", "quantifier": "every transform size n >= 1, every input vector, every earlier planner history, every FFT implementation that computes the forward DFT", "why_tests_cant": "the algorithm chosen and its index arithmetic depend on the size (butterflies, split radix, FFT conversions, naive); tests sample sizes below 20 with one random vector each", "anchors": ["src/plan.rs:plan_dct5", "src/algorithm/type5_naive.rs:Dct5Naive"]}
{"id": "C06", "title": "Planned DCT6 computes the DCT6 of its buffer", "statement": "In exact arithmetic, the instance returned by plan_dct6(n) (whatever was planned before on that planner), when process_dct6 is called on a buffer x of length n, returns normally and leaves X[k] = sum_{i<n-1} x[i] cos(pi k (i+1/2)/(n-1/2)) + x[n-1] cos(pi k)/2 in cell k for every k < n, unnormalised.", "quantifier": "every transform size n >= 1, every input vector, every earlier planner history, every FFT implementation that computes the forward DFT", "why_tests_cant": "the algorithm chosen and its index arithmetic depend on the size (butterflies, split radix, FFT conversions, naive); tests sample sizes below 20 with one random vector each", "anchors": ["src/plan.rs:plan_dct6", "src/algorithm/type6and7_naive.rs:Dct6And7Naive"]}
{"id": "C07", "title": "Planned DCT7 computes the DCT7 of its buffer", "statement": "In exact arithmetic, the instance returned by plan_dct7(n) (whatever was planned before on that planner), when process_dct7 is called on a buffer x of length n, returns normally and leaves X[k] = x[0]/2 + sum_{0<i<n} x[i] cos(pi (k+1/2) i/(n-1/2)) in cell k for every k < n, unnormalised.", "quantifier": "every transform size n >= 1, every input vector, every earlier planner history, every FFT implementation that computes the forward DFT", "why_tests_cant": "the algorithm chosen and its index arithmetic depend on the size (butterflies, split radix, FFT conversions, naive); tests sample sizes below 20 with one random vector each", "anchors": ["src/plan.rs:plan_dct7", "src/algorithm/type6and7_naive.rs:Dct6And7Naive"]}
{"id": "C08", "title": "Planned DCT8 computes the DCT8 of its buffer", "statement": "In exact arithmetic, the instance returned by plan_dct8(n) (whatever was planned before on that planner), when process_dct8 is called on a buffer x of length n, returns normally and leaves X[k] = sum_{i<n} x[i] cos(pi (k+1/2)(i+1/2)/(n+1/2)) in cell k for every k < n, unnormalised.", "quantifier": "every transform size n >= 1, every input vector, every earlier planner history, every FFT implementation that computes the forward DFT", "why_tests_cant": "the algorithm chosen and its index arithmetic depend on the size (butterflies, split radix, FFT conversions, naive); tests sample sizes below 20 with one random vector each", "anchors": ["src/plan.rs:plan_dct8", "src/algorithm/type8_naive.rs:Dct8Naive"]}
{"id": "C09", "title": "Planned DST1 computes the DST1 of its buffer", "statement": "In exact arithmetic, the instance returned by plan_dst1(n) (whatever was planned before on that planner), when process_dst1 is called on a buffer x of length n, returns normally and leaves X[k] = sum_{i<n} x[i] sin(pi (k+1)(i+1)/(n+1)) in cell k for every k < n, unnormalised.", "quantifier": "every transform size n >= 1, every input vector, every earlier planner history, every FFT implementation that computes the forward DFT", "why_tests_cant": "the algorithm chosen and its index arithmetic depend on the size (butterflies, split radix, FFT conversions, naive); tests sample sizes below 20 with one random vector each", "anchors": ["src/plan.rs:plan_dst1", "src/algorithm/type1_naive.rs:Dst1Naive", "src/algorithm/type1_convert_to_fft.rs:Dst1ConvertToFft"]}
{"id": "C10", "title": "Planned DST2 computes the DST2 of its buffer", "statement": "In exact arithmetic, the instance returned by plan_dst2(n) (whatever was planned before on that planner), when process_dst2 is called on a buffer x of length n, returns normally and leaves X[k] = sum_{i<n} x[i] sin(pi (k+1)(i+1/2)/n) in cell k for every k < n, unnormalised.", "quantifier": "every transform size n >= 1, every input vector, every earlier planner history, every FFT implementation that computes the forward DFT", "why_tests_cant": "the algorithm chosen and its index arithmetic depend on the size (butterflies, split radix, FFT conversions, naive); tests sample sizes below 20 with one random vector each", "anchors": ["src/plan.rs:plan_dst2", "src/algorithm/type2and3_butterflies.rs", "src/algorithm/type2and3_splitradix.rs", "src/algorithm/type2and3_convert_to_fft.rs", "src/algorithm/type2and3_naive.rs"]}
{"id": "C11", "title": "Planned DST3 computes the DST3 of its buffer", "statement": "In exact arithmetic, the instance returned by plan_dst3(n) (whatever was planned before on that planner), when process_dst3 is called on a buffer x of length n, returns normally and leaves X[k] = sum_{i<n-1} x[i] sin(pi (k+1/2)(i+1)/n) + x[n-1] sin(pi (k+1/2))/2 in cell k for every k < n, unnormalised.", "quantifier": "every transform size n >= 1, every input vector, every earlier planner history, every FFT implementation that computes the forward DFT", "why_tests_cant": "the algorithm chosen and its index arithmetic depend on the size (butterflies, split radix, FFT conversions, naive); tests sample sizes below 20 with one random vector each", "anchors": ["src/plan.rs:plan_dst3", "src/algorithm/type2and3_butterflies.rs", "src/algorithm/type2and3_splitradix.rs", "src/algorithm/type2and3_convert_to_fft.rs", "src/algorithm/type2and3_naive.rs"]}
{"id": "C12", "title": "Planned DST4 computes the DST4 of its buffer", "statement": "In exact arithmetic, the instance returned by plan_dst4(n) (whatever was planned before on that planner), when process_dst4 is called on a buffer x of length n, returns normally and leaves X[k] = sum_{i<n} x[i] sin(pi (k+1/2)(i+1/2)/n) in cell k for every k < n, unnormalised.", "quantifier": "every transform size n >= 1, every input vector, every earlier planner history, every FFT implementation that computes the forward DFT", "why_tests_cant": "the algorithm chosen and its index arithmetic depend on the size (butterflies, split radix, FFT conversions, naive); tests sample sizes below 20 with one random vector each", "anchors": ["src/plan.rs:plan_dst4", "src/algorithm/type4_naive.rs", "src/algorithm/type4_convert_to_fft.rs", "src/algorithm/type4_convert_to_type3.rs"]}
{"id": "C13", "title": "Planned DST5 computes the DST5 of its buffer", "statement": "In exact arithmetic, the instance returned by plan_dst5(n) (whatever was planned before on that planner), when process_dst5 is called on a buffer x of length n, returns normally and leaves X[k] = sum_{i<n} x[i] sin(pi (k+1)(i+1)/(n+1/2)) in cell k for every k < n, unnormalised.", "quantifier": "every transform size n >= 1, every input vector, every earlier planner history, every FFT implementation that computes the forward DFT", "why_tests_cant": "the algorithm chosen and its index arithmetic depend on the size (butterflies, split radix, FFT conversions, naive); tests sample sizes below 20 with one random vector each", "anchors": ["src/plan.rs:plan_dst5", "src/algorithm/type5_naive.rs:Dst5Naive"]}
{"id": "C14", "title": "Planned DST6 computes the DST6 of its buffer", "statement": "In exact arithmetic, the instance returned by plan_dst6(n) (whatever was planned before on that planner), when process_dst6 is called on a buffer x of length n, returns normally and leaves X[k] = sum_{i<n} x[i] sin(pi (k+1)(i+1/2)/(n+1/2)) in cell k for every k < n, unnormalised.", "quantifier": "every transform size n >= 1, every input vector, every earlier planner history, every FFT implementation that computes the forward DFT", "why_tests_cant": "the algorithm chosen and its index arithmetic depend on the size (butterflies, split radix, FFT conversions, naive); tests sample sizes below 20 with one random vector each", "anchors": ["src/plan.rs:plan_dst6", "src/algorithm/type6and7_naive.rs:Dst6And7Naive", "src/algorithm/type6and7_convert_to_fft.rs"]}
{"id": "C15", "title": "Planned DST7 computes the DST7 of its buffer", "statement": "In exact arithmetic, the instance returned by plan_dst7(n) (whatever was planned before on that planner), when process_dst7 is called on a buffer x of length n, returns normally and leaves X[k] = sum_{i<n} x[i] sin(pi (k+1/2)(i+1)/(n+1/2)) in cell k for every k < n, unnormalised.", "quantifier": "every transform size n >= 1, every input vector, every earlier planner history, every FFT implementation that computes the forward DFT", "why_tests_cant": "the algorithm chosen and its index arithmetic depend on the size (butterflies, split radix, FFT conversions, naive); tests sample sizes below 20 with one random vector each", "anchors": ["src/plan.rs:plan_dst7", "src/algorithm/type6and7_naive.rs:Dst6And7Naive", "src/algorithm/type6and7_convert_to_fft.rs"]}
{"id": "C16", "title": "Planned DST8 computes the DST8 of its buffer", "statement": "In exact arithmetic, the instance returned by plan_dst8(n) (whatever was planned before on that planner), when process_dst8 is called on a buffer x of length n, returns normally and leaves X[k] = sum_{i<n-1} x[i] sin(pi (k+1/2)(i+1/2)/(n-1/2)) + x[n-1] sin(pi (k+1/2))/2 in cell k for every k < n, unnormalised.", "quantifier": "every transform size n >= 1, every input vector, every earlier planner history, every FFT implementation that computes the forward DFT", "why_tests_cant": "the algorithm chosen and its index arithmetic depend on the size (butterflies, split radix, FFT conversions, naive); tests sample sizes below 20 with one random vector each", "anchors": ["src/plan.rs:plan_dst8", "src/algorithm/type8_naive.rs:Dst8Naive"]}
{"id": "C17", "title": "Planned MDCT computes the windowed MDCT", "statement": "In exact arithmetic, the instance returned by the first plan_mdct(n, window) of a planner, for n even and a window function returning 2n values w, makes process_mdct_with_scratch(a, b, out, scratch) write out[k] = sum_{i<2n} w[i] x[i] cos(pi (k+1/2)(i+1/2+n/2)/n), where x is a followed by b, for any previous content of out and scratch.", "quantifier": "every even size, every window, every input, every old output and scratch content", "why_tests_cant": "sizes, windows and inputs are unbounded; the tests compare two implementations on a few sizes", "anchors": ["src/plan.rs:plan_mdct", "src/mdct/mdct_via_dct4.rs:process_mdct_with_scratch", "src/mdct/mdct_naive.rs:process_mdct_with_scratch"]}
{"id": "C18", "title": "Planned IMDCT adds the windowed IMDCT to its outputs", "statement": "In exact arithmetic, process_imdct_with_scratch(input, a, b, scratch) of the planned MDCT instance adds to the old content of a followed by b, at position i < 2n, the value w[i] * sum_{k<n} input[k] cos(pi (k+1/2)(i+1/2+n/2)/n), for any scratch content; nothing is overwritten.", "quantifier": "every even size, every window, every input, every old output and scratch content", "why_tests_cant": "accumulation into arbitrary previous contents over all sizes", "anchors": ["src/mdct/mod.rs:Mdct", "src/mdct/mdct_via_dct4.rs:process_imdct_with_scratch", "src/mdct/mdct_naive.rs:process_imdct_with_scratch"]}
{"id": "C19", "title": "Overlap-added MDCT segments reconstruct the signal (TDAC)", "statement": "In exact arithmetic, for a window w with w[i]=w[2n-1-i] and w[i]^2 + w[i+n]^2 = c for i < n, transforming segments [jn, (j+2)n) of a signal with the MDCT and running the IMDCT of each result into the same overlapping output positions of a zero buffer yields c * n/2 times the signal on every block covered by two segments.", "quantifier": "every even size, every number of segments, every signal, every window satisfying the condition", "why_tests_cant": "needs an algebraic identity over all sizes, segment counts and signals", "anchors": ["src/mdct/mod.rs:Mdct", "tests/common/macros.rs:test_tdac"]}
{"id": "C20", "title": "The built-in windows satisfy the Princen-Bradley condition", "statement": "In exact arithmetic and for every even length 2n >= 2, mp3, vorbis and one return exactly 2n values, are symmetric, and w[i]^2 + w[i+n]^2 equals 1 for mp3 and vorbis and 2 for one; mp3_invertible, vorbis_invertible and invertible are sqrt(2/n), sqrt(2/n) and sqrt(1/n) times these.", "quantifier": "every window length", "why_tests_cant": "tests cover lengths up to 38 within a tolerance", "anchors": ["src/mdct/window_fn.rs"]}
{"id": "C21", "title": "The invertible windows make MDCT then IMDCT reconstruct without any scaling", "statement": "In exact arithmetic, with mp3_invertible, vorbis_invertible or invertible as the window of the planned MDCT, overlap-adding IMDCTs of consecutive MDCT segments reproduces the signal exactly on every block covered by two segments.", "quantifier": "every even size, every signal, every number of segments", "why_tests_cant": "universal over sizes and signals", "anchors": ["src/mdct/window_fn.rs:mp3_invertible", "src/mdct/window_fn.rs:vorbis_invertible", "src/mdct/window_fn.rs:invertible"]}
{"id": "C22", "title": "The documented inverse pairs invert each other up to the documented scale", "statement": "In exact arithmetic, running the planned transform and then its inverse type on the same buffer multiplies the buffer by (n-1)/2 for DCT1; n/2 for DCT2 then DCT3 and DCT3 then DCT2, DCT4, DST2 then DST3 and DST3 then DST2, DST4; (n+1)/2 for DST1; (n-1/2)/2 for DCT5, DCT6 then DCT7, DCT7 then DCT6, DST8; (n+1/2)/2 for DCT8, DST5, DST6 then DST7, DST7 then DST6.", "quantifier": "every size for which the types are defined, every input", "why_tests_cant": "orthogonality of the bases must hold for all sizes", "anchors": ["tests/test_dct.rs:inverse_scale_*", "src/lib.rs"]}
{"id": "C23", "title": "All algorithms for the same transform agree", "statement": "In exact arithmetic, any two instances of one transform type and length that can be built from the public constructors (naive, butterfly, split radix over any correct inner transforms, FFT conversion over any correct forward FFT, DCT4 via DCT3 over any correct inner transform) leave the same buffer whenever both calls return on the same input, and that buffer is the reference transform.", "quantifier": "every legal composition of public algorithm structs, every size, every input", "why_tests_cant": "compositions are unbounded and user chosen", "anchors": ["src/algorithm/mod.rs"]}
{"id": "C24", "title": "The content of the scratch buffer does not influence the result", "statement": "For every transform instance obtainable from the planner and every numeric type, process_X_with_scratch produces the same output buffer whatever values the scratch slice holds before the call.", "quantifier": "every size, every input, every scratch content, every numeric type (no algebraic law used)", "why_tests_cant": "scratch contents are arbitrary; process_X always passes zeroes, so tests never see dirty scratch", "anchors": ["src/lib.rs:process_*_with_scratch", "src/algorithm/type1_convert_to_fft.rs", "src/algorithm/type6and7_convert_to_fft.rs", "RELEASES.md:0.7"]}
{"id": "C25", "title": "Oversized scratch is accepted and only the required prefix is touched", "statement": "For every planner instance and every numeric type, a call with a correct buffer and a scratch slice of length at least get_scratch_len() behaves like the call with the slice cut to get_scratch_len(): same buffer, and no scratch cell at or beyond get_scratch_len() changes.", "quantifier": "every size, every scratch length, every content", "why_tests_cant": "unbounded scratch lengths and contents", "anchors": ["src/common.rs:validate_buffers", "RELEASES.md:0.7"]}
{"id": "C26", "title": "A buffer of the wrong length is rejected by a panic that changes no memory", "statement": "Calling process_X_with_scratch with buffer.len() different from len() panics, and neither buffer nor scratch has been modified when the panic unwinds.", "quantifier": "every instance, every wrong length, every content of both slices", "why_tests_cant": "all wrong lengths and contents; tests only use right lengths", "anchors": ["src/common.rs:validate_buffers", "src/common.rs:validate_buffer", "src/common.rs:dct_error_inplace", "src/algorithm/type2and3_splitradix.rs:process_dst2_with_scratch"]}
{"id": "C27", "title": "Too little scratch is rejected by a panic that changes no memory", "statement": "Calling process_X_with_scratch on a planner instance with a correct buffer but scratch.len() < get_scratch_len() panics with the not-enough-scratch error, and neither slice has been modified when the panic unwinds.", "quantifier": "every instance, every short scratch length, every content", "why_tests_cant": "all short lengths and contents", "anchors": ["src/common.rs:validate_buffers", "src/common.rs:dct_error_inplace"]}
{"id": "C28", "title": "get_scratch_len is always enough for planner instances", "statement": "For every numeric type, every planner instance of a non-zero legal size called with buffer.len() = len() and scratch.len() >= get_scratch_len() returns normally: no panic of any kind, including inside recursive inner transforms that borrow the caller buffer as scratch.", "quantifier": "every size and transform, every content, every numeric type", "why_tests_cant": "depends on the recursive plan for each size", "anchors": ["src/algorithm/type2and3_splitradix.rs", "src/algorithm/type4_convert_to_type3.rs", "src/mdct/mdct_via_dct4.rs", "src/plan.rs"]}
{"id": "C29", "title": "get_scratch_len is enough for every instance built with the public constructors", "statement": "Every value a public algorithm constructor returns accepts a buffer of length len() together with a scratch slice of get_scratch_len() cells without panicking.", "quantifier": "every legal composition of public constructors", "why_tests_cant": "user chosen compositions, e.g. split radix over FFT conversions", "anchors": ["src/algorithm/type2and3_splitradix.rs:Type2And3SplitRadix", "src/algorithm/type2and3_convert_to_fft.rs"]}
{"id": "C30", "title": "No call ever reads or writes outside the slices it was given", "statement": "For every numeric type, every constructible instance, every buffer and scratch length and content, the unchecked accesses stay inside the slices (no undefined behaviour), and no memory other than the two (for MDCT: four) slices is written.", "quantifier": "every instance, slice length and content, correct or not", "why_tests_cant": "memory safety must hold for all lengths, also the rejected ones", "anchors": ["src/algorithm/type2and3_splitradix.rs:get_unchecked", "src/algorithm/type2and3_butterflies.rs:get_unchecked", "src/array_utils.rs:into_complex_mut"]}
{"id": "C31", "title": "len() of a planned instance is the requested length", "statement": "For every planner history, len() of the instance returned by plan_X(n) is n, for all sixteen transforms and the MDCT.", "quantifier": "every size and history", "why_tests_cant": "histories are unbounded", "anchors": ["src/plan.rs", "src/algorithm/*:Length"]}
{"id": "C32", "title": "Planning the same size again returns the same shared instance", "statement": "After plan_X(n) returned an instance, any later plan_X(n) on the same planner, whatever was planned in between, returns the identical Arc; plan_dct2, plan_dct3, plan_dst2 and plan_dst3 share one, as do plan_dct4/plan_dst4, plan_dct6/plan_dct7, plan_dst6/plan_dst7.", "quantifier": "every history of planner calls", "why_tests_cant": "histories are unbounded", "anchors": ["src/plan.rs:plan_dct1", "src/plan.rs:*_cache"]}
{"id": "C33", "title": "The behaviour of a planned instance does not depend on the planning history", "statement": "For each of the sixteen transforms and every numeric type, the instance returned by plan_X(n) on a planner with any history gives the same outcome on every buffer and scratch as the instance returned by plan_X(n) on a new planner, and reports the same len() and get_scratch_len().", "quantifier": "every history, size, buffer and scratch", "why_tests_cant": "histories are unbounded", "anchors": ["src/plan.rs"]}
{"id": "C34", "title": "plan_mdct applies the window function it is given", "statement": "The instance returned by plan_mdct(n, f) applies the window values f(2n), whatever was planned before on the same planner.", "quantifier": "every history of planner calls and windows", "why_tests_cant": "needs two plan_mdct calls with equal length and different windows; the cache key is the length only", "anchors": ["src/plan.rs:plan_mdct", "src/plan.rs:mdct_cache"]}
{"id": "C35", "title": "The planner panics exactly for the sizes where the transform is undefined", "statement": "plan_dct1 panics exactly for n = 0 and n = 1; plan_dct5, plan_dct6, plan_dct7 and plan_dst8 exactly for n = 0; plan_mdct exactly for odd n or a window function returning the wrong number of values (when n is not cached); all other plan methods never panic, and the recursion of the planner terminates.", "quantifier": "every size and history", "why_tests_cant": "all sizes", "anchors": ["src/plan.rs", "src/algorithm/type1_naive.rs:Dct1Naive::new", "src/algorithm/type5_naive.rs", "src/algorithm/type6and7_naive.rs", "src/algorithm/type8_naive.rs", "src/mdct/mdct_via_dct4.rs:new"]}
{"id": "C36", "title": "A panicking plan call does not damage the planner", "statement": "If plan_X panics and the panic is caught, every instance cached before is still returned unchanged, the failed size is not cached, and all later plan calls behave as on a planner where the failed call never happened.", "quantifier": "every history containing failing calls", "why_tests_cant": "histories are unbounded", "anchors": ["src/plan.rs"]}
{"id": "C37", "title": "One instance can be used by many threads at once", "statement": "Any number of threads that call process_X_with_scratch (on the same or different instances) with pairwise disjoint output and scratch slices obtain, under every interleaving of their individual memory accesses, exactly the memory contents and outcomes of running the calls one after the other.", "quantifier": "every interleaving, any number of threads, every instance, size and content", "why_tests_cant": "schedules cannot be enumerated", "anchors": ["src/lib.rs:Sync + Send", "src/lib.rs:test_send_sync_impls"]}
{"id": "C38", "title": "MDCT leaves its inputs and everything but the outputs and scratch unchanged", "statement": "process_mdct_with_scratch changes no cell of input_a and input_b and process_imdct_with_scratch no cell of input, for every numeric type, also when the call panics.", "quantifier": "every size, content, legal or illegal lengths", "why_tests_cant": "all lengths and contents", "anchors": ["src/mdct/mod.rs:Mdct"]}
{"id": "C39", "title": "The public constructors reject unusable inner transforms", "statement": "The FFT based constructors panic exactly when given an inverse FFT or an FFT length of the wrong parity (or, for DST1, length zero); split radix exactly when twice the half length is not a power of two above two or is not four times the quarter length; MDCT constructors exactly for odd lengths or wrong window lengths.", "quantifier": "every inner length and direction", "why_tests_cant": "all lengths", "anchors": ["src/algorithm/type1_convert_to_fft.rs:new", "src/algorithm/type2and3_convert_to_fft.rs:new", "src/algorithm/type4_convert_to_fft.rs:new", "src/algorithm/type6and7_convert_to_fft.rs:new", "src/algorithm/type2and3_splitradix.rs:new", "src/mdct/mdct_naive.rs:new", "src/mdct/mdct_via_dct4.rs:new"]}
{"id": "C40", "title": "Transforms are linear maps of the buffer", "statement": "In exact arithmetic, every planned transform maps a*x + b*y to a times the image of x plus b times the image of y.", "quantifier": "every size, all inputs and scalars", "why_tests_cant": "all inputs", "anchors": ["src/lib.rs"]}
{"id": "C41", "title": "Results are a function of the input alone for every numeric type", "statement": "For every numeric type satisfying the trait bounds (floats with NaN and rounding included) and every planner instance whose scratch behaviour is clean, two calls with equal buffers return bit-identical buffers, independent of scratch, of slice addresses and of earlier calls.", "quantifier": "every numeric type, size, buffer and scratch", "why_tests_cant": "all numeric types and histories", "anchors": ["src/common.rs:DctNum", "src/lib.rs"]}
{"id": "C42", "title": "Zero-length instances behave as characterised", "statement": "plan_X(0) followed by a call with empty slices returns normally for DCT2, DST2, DCT4, DST4, DCT8, DST1, DST5, DST6, DST7 and MDCT, and panics by an out of range index for DCT3 and by a subtraction overflow for DST3.", "quantifier": "the boundary size zero, every numeric type", "why_tests_cant": "tests start at size 1", "anchors": ["src/algorithm/type2and3_convert_to_fft.rs", "src/plan.rs"]}
{"id": "C43", "title": "MDCT calls with any wrong slice length panic without changing memory", "statement": "For both MDCT implementations, a call in which one of the three data slices differs from len() or the scratch is shorter than get_scratch_len() panics with no memory changed.", "quantifier": "every combination of lengths and contents", "why_tests_cant": "all lengths", "anchors": ["src/common.rs:validate_buffers_mdct", "src/common.rs:mdct_error_inplace"]}
{"id": "C44", "title": "Naive implementations meet the definition for every size", "statement": "In exact arithmetic each public naive struct (Dct1Naive ... Dst8Naive, Type2And3Naive, Type4Naive, MdctNaive) built for a legal length n computes its defining sum: the incremental twiddle index wrap-around never leaves the table and always selects the right angle.", "quantifier": "every size and input", "why_tests_cant": "all sizes", "anchors": ["src/algorithm/type1_naive.rs", "src/algorithm/type2and3_naive.rs", "src/algorithm/type4_naive.rs", "src/algorithm/type5_naive.rs", "src/algorithm/type6and7_naive.rs", "src/algorithm/type8_naive.rs", "src/mdct/mdct_naive.rs"]}
{"id": "C45", "title": "DST2 and DST3 are the sign-alternated reversed DCT2 and DCT3", "statement": "For every planner instance in exact arithmetic, process_dst2 equals negating the odd cells, process_dct2, reversing; process_dst3 equals reversing, process_dct3, negating the odd cells.", "quantifier": "every size and input", "why_tests_cant": "all sizes", "anchors": ["src/algorithm/type2and3_splitradix.rs:process_dst2_with_scratch", "src/algorithm/type2and3_butterflies.rs"]}
{"id": "C46", "title": "Power-of-two DCT2/DCT3 use O(n log n) memory accesses", "statement": "The number of memory accesses made by a planned DCT2, DCT3, DST2 or DST3 of size n = 2^k >= 2 is at most c * n * (k+1) for a fixed constant c.", "quantifier": "every power of two", "why_tests_cant": "asymptotic bound over all sizes", "anchors": ["Cargo.toml:description", "src/algorithm/type2and3_splitradix.rs"]}
{"id": "C47", "title": "The two MDCT inputs may overlap", "statement": "In exact arithmetic, process_mdct_with_scratch gives the windowed MDCT of a followed by b also when input_a and input_b are overlapping (or identical) parts of one vector, and leaves that vector unchanged.", "quantifier": "every even size, every position of the two parts, every content", "why_tests_cant": "the tests only pass the two halves of one slice; all overlaps of all sizes cannot be enumerated", "anchors": ["src/mdct/mdct_via_dct4.rs", "src/mdct/mod.rs:10-23"]}
{"id": "C48", "title": "Rounding errors of power-of-two transforms grow with the logarithm of the size", "statement": "In any arithmetic whose operations have relative error at most u (and v for the f64 table computation), a planned DCT2, DCT3, DST2 or DST3 of size 2^k, k >= 1, or DCT4 or DST4 with k >= 3, returns a result whose Euclidean distance to the exact transform is at most (growth u v (k-1) - 1) times the norm of the exact transform, with growth u v j = (1+u)^3 * level(u,v)^j (times sqrt 2 for type 2); for v <= u <= 1/1024 this is at most 26ku/(1-26ku).", "quantifier": "every power of two, every buffer, every scratch content, every planner history, every rounded arithmetic", "why_tests_cant": "the tests compare with tolerances at small sizes on random inputs; a bound for all inputs, all sizes and all ways of rounding cannot be enumerated", "anchors": ["src/algorithm/type2and3_splitradix.rs", "src/algorithm/type2and3_butterflies.rs", "src/algorithm/type4_convert_to_type3.rs", "src/twiddles.rs"]}
{"id": "C49", "title": "Rounding errors of all other transforms, entry by entry", "statement": "In any arithmetic whose operations have relative error at most u (and v < 1/4 for the f64 table computation), with FFTs accurate up to phi times the total magnitude of their input, every planned DCT or DST except the power-of-two cases of C48 returns a result each of whose entries is within entry_bound times the sum of the magnitudes of the buffer of the exact entry; entry_bound does not depend on the size except for types 5 to 8 (other than DST6 and DST7), which only have naive code and where it is (1+u)^(n+2)(1+tau)-1. The naive structs of all types meet that last bound at any size. Closed forms are given for tables as accurate as, and more accurate than, the samples.", "quantifier": "every legal size, every buffer, every scratch content (zero scratch for large DST1, DST6, DST7), every planner history, every rounded arithmetic, every FFT meeting the accuracy assumption", "why_tests_cant": "the tests compare with tolerances at small sizes on random inputs; a bound for all inputs, all sizes and all ways of rounding cannot be enumerated", "anchors": ["src/algorithm/type1_convert_to_fft.rs", "src/algorithm/type2and3_convert_to_fft.rs", "src/algorithm/type4_convert_to_fft.rs", "src/algorithm/type4_convert_to_type3.rs", "src/algorithm/type6and7_convert_to_fft.rs", "src/algorithm/type2and3_naive.rs", "src/twiddles.rs", "src/plan.rs"]}
{"id": "C50", "title": "Rounding errors of the MDCT and IMDCT", "statement": "In any arithmetic whose operations have relative error at most u (and v for the f64 table computation), every coefficient of a planned MDCT is within a stated bound of the exact MDCT with the stored window: relative to the sum of the magnitudes of the windowed samples for sizes that are not a power of two from 8 (with FFTs accurate up to phi), with a bound independent of the size, and relative to the Euclidean norm of the windowed samples with a bound linear in log2 of the size for powers of two. The IMDCT adds the exact inverse to each output up to the same bounds, relative to the old value and the windowed size of the input. The naive struct meets bounds linear in the size.", "quantifier": "every even size, every window function of the right length, every input, every old output, every scratch content, every planner history, every rounded arithmetic, every FFT meeting the accuracy assumption", "why_tests_cant": "the tests compare with tolerances at small sizes on random inputs; a bound for all inputs, all sizes and all ways of rounding cannot be enumerated", "anchors": ["src/mdct/mdct_via_dct4.rs", "src/mdct/mdct_naive.rs", "src/plan.rs", "src/twiddles.rs"]}
{"id": "C51", "title": "Same behaviour in debug and release builds at any word size", "statement": "With usize arithmetic that panics (debug) or wraps around (release) beyond a greatest word MAX, every sequence of planner calls whose lengths fit (8n+12 and the scratch of the FFTs involved can be represented; in a release build also n > 0) returns the same pointers and instances with the same lengths, scratch lengths and methods, or the same panics, as with unbounded integers. So every planned DCT, DST and MDCT computes its definition in both builds.", "quantifier": "every word size, both builds, every planner history, every legal length that fits, every buffer and scratch content, every numeric type for the equivalence, exact arithmetic for the definitions", "why_tests_cant": "tests run one build on one word size and never near the limits; wrap-around would only show at sizes near the word size", "anchors": ["src/plan.rs", "src/algorithm/type2and3_splitradix.rs", "src/algorithm/type4_convert_to_fft.rs", "src/algorithm/type6and7_convert_to_fft.rs", "src/mdct/mdct_via_dct4.rs", "src/array_utils.rs"]}
{"id": "C52", "title": "Index overflow in the naive MDCT", "statement": "MdctNaive computes n/2 + k*(n+1) before reducing it modulo the table length. While that can be represented for every k < n, both builds behave as with unbounded integers. Beyond, every right-sized forward call panics in a debug build; in a release build the result is the MDCT if 4n divides MAX+1 (powers of two), and for every other size some input gives a wrong result. The naive IMDCT is the same in both builds at every size.", "quantifier": "every word size MAX, every even n with 8n+2 <= MAX, every window whose first two values are not zero for the wrong result, every input for the rest", "why_tests_cant": "on 32-bit targets the first affected length is 65536, with quadratic running time; on 64-bit targets it is out of reach", "anchors": ["src/mdct/mdct_naive.rs"]}
{"id": "C53", "title": "Accesses and panics do not depend on the data", "statement": "For every instance that can be built from the public constructors, planned or not, the sequence of cells a call reads and writes, and whether and with which error it panics, depends only on the instance and on the lengths and places of the slices, never on the values in them.", "quantifier": "every transform and MDCT/IMDCT call, every instance over any FFT and inner instances, every size, slices of any length (right or wrong), all pairs of memory contents, every numeric type", "why_tests_cant": "needs pairs of runs on all inputs, and tests do not observe accesses; a branch on a sample value would only show on special inputs", "anchors": ["src/algorithm/type2and3_butterflies.rs", "src/algorithm/type2and3_splitradix.rs", "src/algorithm/type4_convert_to_fft.rs", "src/algorithm/type1_naive.rs", "src/mdct/mdct_naive.rs", "src/mdct/mdct_via_dct4.rs", "src/common.rs"]}
{"id": "C54", "title": "Planning creates few instances and wastes none", "statement": "One planner call creates at most as many instances as it would on a new planner: one for most transforms, log2(n)-2 for DCT2/DCT3/DST2/DST3 of a power of two from 32 on, one more for an even DCT4/DST4 from 6 on, one more for an MDCT; so never more than log2(n)+3. On a new planner it is exactly that number unless the call panics. After any history every instance ever created is what some request returns: nothing is built and thrown away.", "quantifier": "every request and length, every planner state for the bound, every FFT planner, every history, every numeric type", "why_tests_cant": "tests do not count allocations, and a planner that recomputed shared sub-transforms would return the same results, only with a number of instances growing like a power of the length", "anchors": ["src/plan.rs"]}
{"id": "C55", "title": "Overlap-add reconstructs the signal up to rounding errors", "statement": "In an arithmetic that rounds each operation, MDCT followed by IMDCT with overlap-add over any number of blocks returns, and every block but the first and last is within an explicit bound, in the Euclidean norm, of c*n/2 times that block of the signal; the bound depends only on the norms of the block and its two neighbours, on the accuracy of the transforms and on the accuracy of the stored window, and does not grow with the number of blocks. Every window function of the crate is within an explicit distance of a symmetric window with its Princen-Bradley constant. For planned instances of a power of two n=2^k from 8 the accuracy is at most 10*k*u/(1-10*k*u) with tables of squared precision; for other even sizes and for the naive struct it follows from the entrywise bounds with a factor sqrt(2n).", "quantifier": "every rounding arithmetic, every even block size, every signal of any number of blocks, every stale buffer and scratch, every planning history, every window close to a Princen-Bradley one and all six of the crate", "why_tests_cant": "tests reconstruct random signals of a few lengths and compare with a fixed tolerance; no test bounds the error for all signals, or shows that errors of earlier blocks do not accumulate", "anchors": ["src/mdct/mdct_via_dct4.rs", "src/mdct/mdct_naive.rs", "src/mdct/window_fn.rs", "src/plan.rs"]}
{"id": "C56", "title": "The transforms are uniform in the sample type", "statement": "Take two sample types and any relation between their samples (and relations between their table entries and their f64 values) that the arithmetic operations of the two respect. Then planning the same request with both either panics with both or gives instances that ask for the same scratch, and calls of them on related vectors end alike (return, or panic with the same kind of panic) with related vectors. In particular every map that commutes with the arithmetic commutes with the transforms; with IEEE rounding to nearest even, scaling the input by a power of two, and negating it, scales or negates the result exactly, bit for bit; with a vector (SIMD) sample type each lane of the result is the result for that lane. The relation only has to respect products of a sample with a table entry: samples are never multiplied with each other.", "quantifier": "every pair of arithmetics, every relation they respect, every planning history, all sixteen transforms and the MDCT, every size, every content of buffer and scratch; the FFT, where one is used, has to respect the relation too", "why_tests_cant": "tests run one or two float types on a few inputs; no test shows that nothing but ring operations and table entries reaches the output, for every sample type a user may plug in", "anchors": ["src/lib.rs", "src/common.rs", "src/plan.rs", "src/algorithm/type2and3_splitradix.rs", "src/algorithm/type2and3_butterflies.rs", "src/mdct/mdct_via_dct4.rs"]}
{"id": "C57", "title": "Interval arithmetic encloses the exact transforms", "statement": "With a sample type whose operations are related to those of the real numbers, the planned transforms compute results related to the textbook transform of any related real input. In particular, with intervals rounded outwards as the sample type, including intervals for the angles and tables, the computed intervals contain the exact transform of every input inside the given intervals.", "quantifier": "every such sample type, every directed rounding, every legal request, every size, every planning history, every input; sizes that use an FFT need an FFT with the same property", "why_tests_cant": "containment for all inputs in a box, at all sizes and for all roundings cannot be sampled", "anchors": ["src/lib.rs", "src/twiddles.rs", "src/plan.rs", "src/algorithm/type2and3_splitradix.rs", "src/algorithm/type4_convert_to_type3.rs", "src/mdct/window_fn.rs"]}
{"id": "C58", "title": "Logarithmic depth of the power-of-two transforms", "statement": "In the planned DCT2, DCT3, DST2 and DST3 of length 2^k, and the DCT4 and DST4 for k at least 3, no output depends on an input through more than (3k-1)/2 additions one after another (3k/2 for type 4), nor through more than (k+1)/2 multiplications (one more for type 3, k/2+2 for type 4). The count of additions is exact: some output is reached through that many additions and, on the same path, all of the multiplications (all but one for types 3 and 4). Stated with samples that are points in time: the outputs are known that much later than the inputs.", "quantifier": "every k, every duration of an addition and of a multiplication, every input times, every planning history, every FFT planner, every content of the scratch", "why_tests_cant": "tests look at values; the longest chain of dependent operations, at every size, is not observable from results, and a change from a balanced to a running sum would pass every test with a tolerance", "anchors": ["src/algorithm/type2and3_butterflies.rs", "src/algorithm/type2and3_splitradix.rs", "src/algorithm/type4_convert_to_type3.rs", "src/plan.rs"]}
{"id": "C59", "title": "No intermediate overflow in the power-of-two transforms", "statement": "Take any arithmetic that rounds with relative error at most u (v for the f64 tables), and give it a range: results above it in magnitude become infinite and stay so. If the inputs are at most B in magnitude and B times (2(1+u))^adds times ((1+u)^2(1+v)^2)^muls is within the range, with the depths of C58, then no operation of the planned transform overflows: the call returns exactly the finite result computed without a range, whatever (even non-finite) the scratch holds. In closed form B * 2^(adds+1) within the range is enough.", "quantifier": "every such arithmetic, every range, every k, the six planned power-of-two transforms, every input within the bound, every scratch content, every planning history", "why_tests_cant": "tests use inputs near 1; no test covers all inputs up to the bound, and an overflow in an intermediate value needs a particular input", "anchors": ["src/algorithm/type2and3_butterflies.rs", "src/algorithm/type2and3_splitradix.rs", "src/algorithm/type4_convert_to_type3.rs", "src/twiddles.rs", "src/common.rs"]}
{"id": "C60", "title": "Error of every output with rounding, underflow and overflow", "statement": "Take any arithmetic whose operations err by at most a relative u plus an absolute eta (gradual underflow), with f64 tables computed with relative errors v, and in which results above a range become infinite and stay so. If the inputs are at most B in magnitude and (B + (adds+muls) eta) (2(1+u))^adds ((1+u)(1+eps+eta))^muls is within the range, with the depths of C58, then the planned DCT/DST of type 2, 3 or 4 of length 2^k returns only finite values, whatever the scratch holds, and every single output is within that number minus B 2^adds of the exact transform. In closed form the error is at most 2^(adds+1) ((adds + 12 muls) u B + (adds+muls) eta), and 4 in place of 12 with tables of twice the precision. Rounding to nearest with ties to even, p bits and subnormal numbers is such an arithmetic; f32 is an instance.", "quantifier": "every such arithmetic, every range, every k, the six planned power-of-two transforms, every input within the bound, every scratch content, every planning history", "why_tests_cant": "tests compare a few vectors with a tolerance; no test covers all inputs up to the bound, subnormal intermediate values need particular inputs, and the bound is for each output and not for a norm", "anchors": ["src/algorithm/type2and3_butterflies.rs", "src/algorithm/type2and3_splitradix.rs", "src/algorithm/type4_convert_to_type3.rs", "src/twiddles.rs", "src/common.rs", "src/plan.rs"]}
{"id": "C61", "title": "Round trips through a transform and its inverse in rounded arithmetic", "statement": "In any arithmetic that rounds sample operations with relative error at most u and table computations with error at most v, take the planned DCT2, DCT3, DST2, DST3 (or DCT4, DST4 from size 8) of size 2^k and the planned inverse, from planners with any history. Called in turns any number of times on one buffer, with any scratch, every call returns, and after j round trips the buffer is (2^k/2)^j times its original contents up to a relative error of growth(u,v,k-1)^(2j) - 1 in norm (times the square root of two if the second transform is of type 2). In closed form: 52 j k u / (1 - 52 j k u), and 20 in place of 52 with tables of twice the precision.", "quantifier": "every such arithmetic, every k, every number of round trips, the six planned power-of-two transforms, every input, every scratch content, every two planning histories", "why_tests_cant": "tests make one round trip on a few vectors with a tolerance; how the error grows with the number of trips and the size for every input is a statement about all of them", "anchors": ["src/lib.rs", "src/algorithm/type2and3_butterflies.rs", "src/algorithm/type2and3_splitradix.rs", "src/algorithm/type4_convert_to_type3.rs", "src/plan.rs"]}
{"id": "C62", "title": "Soundness on top of inner transforms implemented outside the crate", "statement": "The public traits can be implemented by users, so the constructors that take an inner DCT2/3, DCT4 or DST transform accept code the crate does not control. Whatever length and scratch length such inner transforms report and whatever safe code they run (write anything to the slices they are given, keep state, panic), no method of an instance built on them, to any depth and mixed with the crate's own instances, is undefined behaviour, for slices of any lengths; it writes only to its mutable slices and the inner transforms' own state and depends only on its slices and that state. If they keep no state, calls on separate slices can be interleaved arbitrarily.", "quantifier": "every tree of constructors with foreign leaves, every foreign safe code, every slice length, every memory content, every interleaving", "why_tests_cant": "tests use the crate's own inner transforms; the unchecked accesses are sound only if no foreign implementation whatever can make an index leave its slice", "anchors": ["src/lib.rs", "src/algorithm/type2and3_splitradix.rs", "src/algorithm/type4_convert_to_type3.rs", "src/mdct/mdct_via_dct4.rs", "src/array_utils.rs"]}
{"id": "C63", "title": "Number of memory accesses of every planned transform", "statement": "Whatever was planned before, whatever the scratch and the memory contents, one call of a planned transform of length n makes at most so many reads and writes of single cells: types 2 and 3 of length 2^k, 6 n (k + 1); type 4 of length 2^k, 4 n (k + 2); types 2 and 3 of other lengths, 16 n + 16 besides one FFT of length n; type 4 of other lengths, 40 n + 40 besides two FFTs of length n/2 or one of length n; DCT1 40 n and DST1 80 n besides one FFT of length 2(n-1) or 2(n+1); DST6 and DST7 160 n besides one FFT of length 2n+1; the other six 4 n (n + 1) + 4; the MDCT and IMDCT 8 n more than the DCT4. The FFT is counted as reading and writing its buffer and its scratch once.", "quantifier": "every legal length of all sixteen transforms and every even MDCT length, every planning history, every memory content, every numeric type, every FFT library", "why_tests_cant": "running time on some sizes does not show that no size, no history of the planner and no data take the slow path", "anchors": ["src/plan.rs", "src/algorithm/type1_convert_to_fft.rs", "src/algorithm/type2and3_convert_to_fft.rs", "src/algorithm/type4_convert_to_fft.rs", "src/algorithm/type4_convert_to_type3.rs", "src/algorithm/type6and7_convert_to_fft.rs", "src/mdct/mdct_via_dct4.rs"]}
{"id": "C64", "title": "Transforms are transposes of their inverses and scale energy", "statement": "In exact arithmetic, weighting with one half the ends that a transform's definition halves, the inner product of a planned transform of x with y equals that of x with the planned inverse transform of y, and the energy of the transform of x is the round-trip factor times the energy of x. The IMDCT into zeroed outputs is the transpose of the MDCT, and for a signal with zero first and last blocks and a window satisfying the Princen-Bradley condition with constant c the energies of the MDCTs of its overlapping pairs of blocks of length n add up to c n / 2 times the energy of the signal.", "quantifier": "every legal length of all sixteen transforms and every even MDCT length, every planning history, all real vectors, every signal length, every exact FFT", "why_tests_cant": "the identities range over all pairs of real vectors of all lengths; tests compare with the naive algorithm on some vectors up to rounding", "anchors": ["src/lib.rs", "src/plan.rs", "src/mdct/mod.rs", "src/mdct/mdct_via_dct4.rs", "src/algorithm/type1_convert_to_fft.rs", "src/algorithm/type2and3_convert_to_fft.rs", "src/algorithm/type6and7_convert_to_fft.rs"]}
{"id": "C65", "title": "NaN and infinities reach every output that depends on them", "statement": "In any arithmetic with values that no addition, subtraction, multiplication or negation gets rid of, such as NaN or any non-finite value of IEEE 754, a planned transform given such a value as input j returns such a value as every output k whose coefficient of input j in the definition is not zero, whatever the scratch holds. For the DCT1 of even length, DCT and DST types 2 and 3 of power-of-two length, type 4 of any length and DCT types 5 to 7 these are all the outputs, so there one finite output in f32 or f64 shows that all inputs were finite. One such value in the input of a planned MDCT or IMDCT reaches all outputs, and one in an output buffer of the IMDCT stays.", "quantifier": "every legal length, every planning history, all inputs, scratch contents and arithmetics, every cosine and sine function, every window; every FFT that spreads such values likewise", "why_tests_cant": "no test of the suite feeds a NaN or an infinity, and a factored algorithm could lose one at any of its lengths and positions", "anchors": ["src/plan.rs", "src/algorithm/type2and3_butterflies.rs", "src/algorithm/type2and3_splitradix.rs", "src/algorithm/type2and3_convert_to_fft.rs", "src/algorithm/type4_convert_to_type3.rs", "src/algorithm/type4_convert_to_fft.rs", "src/mdct/mdct_via_dct4.rs"]}
{"id": "C66", "title": "Accuracy of power-of-two transforms in IEEE 754 arithmetic", "statement": "In f32 and f64 as IEEE 754 defines them bit by bit, with round to nearest even, gradual underflow, infinities and NaN, every planned DCT and DST of type 2, 3 or 4 of power-of-two length on finite inputs of magnitude at most B returns finite numbers within an explicit distance of the exact transform, provided the cosine and sine of f64 are accurate to a stated error and the greatest possible intermediate value fits the format. With a additions and m multiplications on the longest path the distance is 2^(a+1) * ((a+4m) 2^-24 B + (a+m) 2^-150) in f32 and 2^(a+1) * ((a+12m) 2^-53 B + (a+m) 2^-1075) in f64. The tables are computed in f64, from the f64 literal for pi, and converted to the format as the code does.", "quantifier": "every power-of-two length up to 2^890, every planning history, all finite inputs, scratch contents and bounds B, every precision and exponent range, all accurate cosine and sine functions", "why_tests_cant": "the tests compare random vectors with a tolerance; finiteness and the error bound are statements about all inputs and lengths", "anchors": ["src/plan.rs", "src/twiddles.rs", "src/lib.rs", "src/algorithm/type2and3_butterflies.rs", "src/algorithm/type2and3_splitradix.rs", "src/algorithm/type4_convert_to_type3.rs"]}
{"id": "C67", "title": "Accuracy of the direct sums in IEEE 754 arithmetic", "statement": "In f32 and f64 as IEEE 754 defines them bit by bit, every algorithm that evaluates the definition of a transform (the sixteen transforms of the naive structs), and every planned transform served by one (DCT types 5 to 8, DST types 5 and 8 of every length, and the other types below the planner's thresholds), on finite inputs whose magnitudes add up to S returns finite numbers within an explicit distance of the exact transform, provided the cosine and sine of f64 are accurate to a stated error and S plus that distance fits the format. For n inputs the distance is 2(n+6) 2^-24 S + 6n 2^-150 in f32 and 2(n+93) 2^-53 S + 6n 2^-1075 in f64. The tables are computed in f64, including the rounding of the lengths, indices and half offsets, and converted to the format as the code does.", "quantifier": "every length up to 2^890, every planning history and FFT planner, all finite inputs and scratch contents, every precision and exponent range, all accurate cosine and sine functions", "why_tests_cant": "the tests compare random vectors of small lengths with a tolerance; finiteness and the error bound are statements about all inputs and lengths", "anchors": ["src/plan.rs", "src/twiddles.rs", "src/lib.rs", "src/algorithm/type1_naive.rs", "src/algorithm/type2and3_naive.rs", "src/algorithm/type4_naive.rs", "src/algorithm/type5_naive.rs", "src/algorithm/type6and7_naive.rs", "src/algorithm/type8_naive.rs"]}
{"id": "C68", "title": "Signs in IEEE 754 arithmetic", "statement": "In f32 and f64 as IEEE 754 defines them bit by bit, negating every sample negates every result of a planned transform exactly, and changing the signs of zeros among the samples changes at most the signs of zeros among the results. This includes samples that are infinite, NaN or subnormal and calls that overflow, and holds for the DCT and DST of all types, the MDCT and its inverse. A buffer of zeros gives zeros, or NaN where a table entry is not finite; with accurate cosine and sine it gives zeros only, for the transforms of power-of-two length and the direct sums.", "quantifier": "all vectors and scratch contents, every planning history, every precision and exponent range, all cosine and sine functions, every FFT that has the symmetry itself where one is used", "why_tests_cant": "bitwise statements about all inputs including special values; the tests compare finite random vectors with a tolerance", "anchors": ["src/plan.rs", "src/twiddles.rs", "src/algorithm/type2and3_splitradix.rs", "src/algorithm/type2and3_butterflies.rs", "src/algorithm/type2and3_convert_to_fft.rs", "src/algorithm/type4_convert_to_type3.rs", "src/mdct/mdct_via_dct4.rs"]}
{"id": "C69", "title": "Mirror images in IEEE 754 arithmetic", "statement": "In f32 and f64 as IEEE 754 defines them bit by bit, the planned DCT2 or DST2 of power-of-two length of a mirrored vector is that of the vector with every second result negated, and the DCT3 or DST3 of a vector with every second entry negated is the mirrored result, exactly and up to the signs of zeros. Hence every second result of the DCT2 or DST2 of a symmetric or antisymmetric vector is zero (or NaN). The DCT2 of a constant vector is exact: its first result is the constant times the length without any rounding error and all others are zero, provided cosine and sine are accurate and the values fit the format.", "quantifier": "every power-of-two length from 2 (up to 2^64 for the exactness of constants), every planning history, all inputs including infinities, NaN and subnormal numbers, all scratch contents, every precision and exponent range, any cosine and sine for the symmetries", "why_tests_cant": "the tests compare with a tolerance, so they cannot see whether rounding errors are symmetric or absent", "anchors": ["src/plan.rs", "src/twiddles.rs", "src/algorithm/type2and3_butterflies.rs", "src/algorithm/type2and3_splitradix.rs"]}

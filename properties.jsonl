{"id": "C01", "title": "calculation_width does not change the optimisation", "statement": "For a loss that is a sum over exposures (every built-in loss as the models use it), the chunks in which a minibatch is simulated (calculation_width = w >= 1) are consecutive, non-empty, at most w long and make up the minibatch; the loss handed to the optimizer is the sum over the minibatch of the per-exposure losses and the accumulated gradient the sum of the per-exposure gradients; so a whole epoch, with any optimizer, normalizer, scheduler and regularizer, ends in the same state and the same outcome for any two widths. calculation_width=0 raises ValueError. (Known limit: for a loss that averages over its chunk the result does depend on the width.)", "quantifier": "every minibatch and loader, every calculation_width, every per-image loss/gradient, every state of the model", "why_tests_cant": "tests use one or two widths on one dataset; equality is over all widths and all batch lengths including ones that do not divide", "anchors": ["src/cdtools/reconstructors/base.py:Reconstructor.run_epoch"]}
{"id": "C02", "title": "epoch loss is independent of the batching", "statement": "The loss reported for an epoch run at fixed parameters does not depend on batch size, order or chunking. With the MSE normalizers the first completed epoch reports the total squared error over unmasked pixels divided by the number N of unmasked pixels seen, later epochs their own total divided by that same N (frozen, whatever data they run on); with the Poisson normalizer an epoch reports (total - total of the data against itself) / (half the number of unmasked pixels with at least one count). Without a normalizer the loss is the total. (Known defect: an interrupted first epoch leaves its pixel count behind, and all later losses are divided by the leftover plus the true count.)", "quantifier": "every dataset, mask, batch size, order and chunk width; first and later epochs", "why_tests_cant": "needs all partitions and permutations of a dataset", "anchors": ["src/cdtools/reconstructors/base.py:Reconstructor.run_epoch", "src/cdtools/tools/losses/losses.py:AmplitudeMSENormalizer,IntensityMSENormalizer,SimplePoissonNLLNormalizer"]}
{"id": "C03", "title": "loss_history / epoch / training_history bookkeeping", "statement": "After any sequence of optimize calls (any reconstructors, iterations, early termination, generators advanced in any order, threaded or not, interrupted or not), loss_history has grown exactly by the losses of the completed epochs in order, model.epoch minus len(loss_history) is unchanged, training_history has only grown, and nothing earlier has been removed or altered; an epoch that raises adds nothing.", "quantifier": "every history of optimize calls, partial consumption of generators, epochs that raise, every thread schedule", "why_tests_cant": "quantifies over all call histories", "anchors": ["src/cdtools/reconstructors/base.py:Reconstructor.run_epoch,optimize", "src/cdtools/models/base.py:CDIModel"]}
{"id": "C04", "title": "optimize yields exactly one loss per iteration, threaded or not", "statement": "Consuming k values from optimize(iterations=n) runs min(k, n) epochs and yields their losses one by one, each together with the model state right after its epoch; after n values it stops; an epoch that raises ends the iteration with that exception. With thread=True, under every schedule of the worker and the caller in which the calls return, the values, the model state after each value and the final state are those of thread=False.", "quantifier": "all n, k, epoch functions, initial states and schedules", "why_tests_cant": "covers every consumption pattern and thread schedule", "anchors": ["src/cdtools/reconstructors/base.py:Reconstructor.optimize"]}
{"id": "C05", "title": "errors and interrupts in the worker thread surface in the caller", "statement": "With thread=True, when an epoch ends with a value or an Exception, next() delivers exactly that value or re-raises exactly that exception under every schedule that lets the worker and then the caller run. A stop request makes an epoch either finish as if uninterrupted or end in SystemExit. After Ctrl-C in the caller the worker ends within two of its own steps, and then KeyboardInterrupt is raised in the caller, never before the worker has ended. (Known defects: a BaseException that is not an Exception, e.g. exit() in the model, kills the worker silently and next() never returns; an exception other than KeyboardInterrupt in the polling loop reaches the caller while the worker still runs and goes on changing the model.)", "quantifier": "every interleaving of worker, consumer and GUI calls", "why_tests_cant": "depends on all interleavings and failure points", "anchors": ["src/cdtools/reconstructors/base.py:Reconstructor.optimize,calculate"]}
{"id": "C06", "title": "skip_computation skips computation", "statement": "Inside model.skip_computation(), each next() on optimize with thread=True (the default) yields the last loss (NaN if there is none), runs no epoch and changes nothing but model.epoch, which advances by one. (Known defect: with thread=False the first next() raises AttributeError.)", "quantifier": "every model state, number of iterations and thread schedule", "why_tests_cant": "ranges over all states and both threading modes", "anchors": ["src/cdtools/models/base.py:skip_computation", "src/cdtools/reconstructors/base.py:Reconstructor.optimize"]}
{"id": "C07", "title": "default batch sizes", "statement": "Adam_optimize, the Adam reconstructor and the SGD reconstructor get a working loader with their default arguments, and LBFGS gives one minibatch per epoch holding every selected pattern once. (Known defect: CDIModel.SGD_optimize with its default batch_size fails with AttributeError for every dataset.)", "quantifier": "every dataset, subset and optimize wrapper", "why_tests_cant": "a default-argument path over all wrappers", "anchors": ["src/cdtools/reconstructors/base.py:setup_dataloader", "src/cdtools/models/base.py:SGD_optimize,LBFGS_optimize,Adam_optimize"]}
{"id": "C08", "title": "order of the minibatches", "statement": "With Adam, shuffle=False visits the selected patterns in order in every epoch, shuffle=True in the order the sampler drew for that epoch, and a custom data loader is used as it is. (Known defect: SGD ignores the shuffle flag and always visits in the random order.)", "quantifier": "every dataset, subset, batch size, epoch and sampler", "why_tests_cant": "universal over batch sizes and seeds", "anchors": ["src/cdtools/reconstructors/sgd.py:SGDReconstructor.optimize", "src/cdtools/reconstructors/adam.py:AdamReconstructor.optimize", "src/cdtools/reconstructors/base.py:setup_dataloader"]}
{"id": "C09", "title": "learning-rate factors persist and apply per parameter", "statement": "After any sequence of Adam/SGD optimize calls, from construction on, there is one parameter group per parameter and each runs with lr * factor, where the factor is the one in the most recently supplied dictionary (None keeps the old one, a new one replaces it completely) and 1 for parameters not named; exactly the supplied names that match no parameter are reported, and they have no effect.", "quantifier": "all sequences of calls and scheduler steps, parameter sets and factor maps", "why_tests_cant": "history dependent", "anchors": ["src/cdtools/reconstructors/adam.py:AdamReconstructor", "src/cdtools/reconstructors/sgd.py:SGDReconstructor"]}
{"id": "C10", "title": "each epoch visits each selected diffraction pattern exactly once", "statement": "With subset=None, an int or a list, one epoch feeds exactly the selected indices (in order if not shuffled, a permutation otherwise) to the model, in minibatches of batch_size with a possibly smaller last one; no other pattern influences the loss.", "quantifier": "every dataset length, subset, batch size and shuffle order", "why_tests_cant": "universal over sizes and permutations", "anchors": ["src/cdtools/reconstructors/base.py:Reconstructor.__init__,setup_dataloader"]}
{"id": "C11", "title": "checkpointed jobs compose to the uninterrupted run", "statement": "A script whose stages are separated by model.checkpoint() calls, run once per job id 0..n-1 on any disk: every job but the last ends in exit(), the last completes with the stored state of the uninterrupted run, and the optimize loops executed by all jobs together are exactly those of the uninterrupted run, in order, each once; after any prefix of the jobs the checkpoint on disk holds the stored state of the uninterrupted run at that point. This requires that a stage's effect on the stored state does not depend on state checkpoints do not store (known defect: a loss normalizer frozen in an earlier stage is such state, and the resumed run then differs). checkpoint() without use_checkpoints raises and writes nothing; saving touches no other checkpoint.", "quantifier": "every number of stages, every stage, every crash point between jobs, every initial disk", "why_tests_cant": "induction over jobs; every crash point between jobs", "anchors": ["src/cdtools/models/base.py:use_checkpoints,save_checkpoint,load_checkpoint,checkpoint,skip_computation"]}
{"id": "C12", "title": "optimizer state in checkpoints", "statement": "A checkpoint saved by a model with a current optimizer contains that optimizer's state, and loading it into a model with a current optimizer restores exactly that state; the stored results come back in either case; loading a checkpoint without optimizer state into a model that has an optimizer raises KeyError. (Known defect: optimize records the running optimizer on the reconstructor, not on the model, so no checkpoint taken during or after any sequence of optimize calls contains optimizer state.)", "quantifier": "every model state and disk; every history of optimize calls", "why_tests_cant": "depends on which object holds the optimizer along a history", "anchors": ["src/cdtools/models/base.py:save_checkpoint,load_checkpoint", "src/cdtools/reconstructors/base.py:Reconstructor.optimize"]}
{"id": "C13", "title": "save_on_exit / save_on_exception never lose results", "statement": "Leaving save_on_exit normally writes the results to the given file; leaving it with any exception (including KeyboardInterrupt and SystemExit) writes the results reached so far to the exception file, or to the given file if none was named, and re-raises the same exception; save_on_exception writes only on exception; no other file is touched, and a failing body is never reported as success. (Known limit: if the save itself fails, the user sees the error of the save instead of the original one.)", "quantifier": "every body, outcome, file name and save routine", "why_tests_cant": "all outcomes including failures of the save", "anchors": ["src/cdtools/models/base.py:save_on_exit,save_on_exception,save_to_h5"]}
{"id": "C14", "title": "results dictionaries survive the HDF5 round trip", "statement": "For every nested dictionary whose leaves are arrays, tensors, numbers or strings (without NUL) and whose keys are non-empty and contain no '/', h5_to_nested_dict(nested_dict_to_h5(d)) returns the same keys and values (tensors as arrays, 0-d arrays as numbers); nested_dict_to_numpy / nested_dict_to_torch keep the structure, convert exactly the array leaves and are mutually inverse; save_results written to a file, read back and loaded into any model of the same architecture restores every parameter, the loss history, the epoch and the training history; loading results that do not fit either fails or changes exactly the parameters that are stored, and a stored array of another shape fails. (Known limits: a key with '/' comes back as nested dictionaries, a list or other object raises ValueError, and nested_dict_to_numpy, unlike nested_dict_to_h5, refuses tensors that require grad.)", "quantifier": "every tree of every depth, every model state", "why_tests_cant": "structural induction over trees", "anchors": ["src/cdtools/tools/data/data.py:nested_dict_to_h5,h5_to_nested_dict,nested_dict_to_numpy,nested_dict_to_torch"]}
{"id": "C15", "title": "CXI mask encoding", "statement": "For every boolean mask, get_mask after add_mask returns it, whatever else is added to the file; of every stored 32-bit CXI mask exactly the pixels holding 0 or 0x1000 are kept.", "quantifier": "every mask array, every other content of the file", "why_tests_cant": "all values of the bit field", "anchors": ["src/cdtools/tools/data/data.py:get_mask,add_mask"]}
{"id": "C16", "title": "CXI accessor round trips", "statement": "Whatever is added to a CXI file, in whatever order, succeeds if the names differ and is read back: wavelength, mask, quantum efficiency, dark image (the pixelwise mean of the numbers for a stack), data with axes names, shot-to-shot information, translations with their sign, distance, basis and corner; values pass through binary32 where the readers convert, which keeps every 24-bit number and moves others by at most a relative 2^-24. The values lie where the CXI specification puts them (translations negated, energy = hc / wavelength consistent to 2^-23, pixel sizes the lengths of the basis vectors). Files of other programs are read by the documented fallbacks: wavelength from energy, an axis-aligned basis from pixel sizes, the distance from the corner position, axes names trimmed and in lower case, negative pixels cut to zero.", "quantifier": "every value and every order of additions, every file content", "why_tests_cant": "universal over values and file states", "anchors": ["src/cdtools/tools/data/data.py"]}
{"id": "C17", "title": "Ptycho2DDataset.to_cxi / from_cxi round trip", "statement": "Saving a ptychography dataset that has a wavelength and a detector geometry and whose values are binary32, and loading it back, reproduces patterns, axes, translations, intensities, wavelength, geometry, quantum-efficiency mask and background exactly (non-negative patterns if negative counts are cut), with any of the optional fields absent; a missing mask becomes an all-true mask of the detector's shape. (Known defect: a dataset without a wavelength or without a geometry is saved, but the file cannot be loaded: KeyError.)", "quantifier": "every dataset, with any optional field absent", "why_tests_cant": "all combinations of optional fields", "anchors": ["src/cdtools/datasets/ptycho_2d_dataset.py:to_cxi,from_cxi", "src/cdtools/datasets/base.py:to_cxi,from_cxi"]}
{"id": "C18", "title": "entry metadata is returned as written", "statement": "Metadata under the known keys survive saving and loading: every text the date parser rejects with ValueError is returned as written, every date whose ISO text the parser understands as that date, absent entries stay absent, and keys outside the known list are not read. (Known defects: a text the date parser happens to accept, in any field, comes back as a date; a text on which the parser raises anything else makes the saved file unreadable.)", "quantifier": "every text, date, date parser and set of entries", "why_tests_cant": "depends on date parsing of arbitrary strings", "anchors": ["src/cdtools/tools/data/data.py:get_entry_info,add_entry_info"]}
{"id": "C19", "title": "datasets can be saved by path", "statement": "Ptycho2DDataset.to_cxi(path) produces exactly the file that writing to a fresh open CXI file produces, and a CDataset can be written to a fresh open CXI file whenever its entry texts are ASCII. (Known defect: CDataset.to_cxi(path) raises KeyError for every dataset that has anything to save.)", "quantifier": "every dataset", "why_tests_cant": "error path", "anchors": ["src/cdtools/datasets/base.py:CDataset.to_cxi"]}
{"id": "C20", "title": "split partitions the dataset", "statement": "split() returns two consistent datasets which share mask, background, geometry and everything not per exposure; exposure k (pattern, translation, intensity together) goes to the first or second according to entry k mod 5000 of the fixed selection, in the original order, so together they contain every exposure exactly once. Translations that do not match the patterns in number are refused (IndexError).", "quantifier": "every dataset length, including lengths above 5000, every selection table", "why_tests_cant": "lengths unbounded", "anchors": ["src/cdtools/datasets/ptycho_2d_dataset.py:split"]}
{"id": "C21", "title": "selecting exposures keeps patterns and positions aligned", "statement": "On a consistent dataset remove_translations_mask and crop_translations keep exactly the exposures selected, in order, with pattern, translation and intensity aligned and everything else unchanged; crop_translations keeps exactly the positions within the inclusive region, whatever the order of the corners; a mask of the wrong length or an empty selection raises ValueError and leaves the dataset unchanged. (Known defect: if the intensities do not match in number, IndexError is raised after patterns and translations have already been cut.)", "quantifier": "every dataset, mask and region; every sequence of selections", "why_tests_cant": "universal", "anchors": ["src/cdtools/datasets/ptycho_2d_dataset.py:remove_translations_mask,crop_translations"]}
{"id": "C22", "title": "pad keeps the measured data", "statement": "pad surrounds each pattern with the given value, the background with 0 and the mask with masked (default) or unmasked pixels, keeps every measured pixel at the shifted position, keeps translations and intensities, leaves the total of a pattern unchanged for value 0, and without a quantum-efficiency mask leaves the dataset usable by downsample. (Known defect: a quantum-efficiency mask is not padded, and downsampling the padded dataset raises RuntimeError after replacing the patterns.)", "quantifier": "all shapes, pad widths and argument forms", "why_tests_cant": "all shapes", "anchors": ["src/cdtools/datasets/ptycho_2d_dataset.py:pad"]}
{"id": "C23", "title": "downsample bins counts and masks consistently", "statement": "On every well-formed dataset downsample(f) replaces each f by f block by the sum of its unmasked counts; without a quantum-efficiency mask a block is kept iff all its pixels were kept, with one iff some pixel was kept, the new efficiency being the block mean over kept pixels; background is summed and the detector basis multiplied by f; masked values never influence the result; total unmasked counts are conserved when f divides the shape; downsample(f) then downsample(g) equals downsample(f*g) in shape, mask, background, basis and at every kept pixel (with a quantum-efficiency mask: at every pixel). (Known limit: without one, counts at masked-out pixels differ between the two ways.)", "quantifier": "all shapes, masks, factors", "why_tests_cant": "all shapes and factors", "anchors": ["src/cdtools/datasets/ptycho_2d_dataset.py:downsample"]}
{"id": "C24", "title": "NaN pixels are masked out", "statement": "After constructing a Ptycho2DDataset the patterns contain no NaN, measured values are unchanged, and the mask excludes exactly what the given mask excluded and the pixels that were NaN in at least one pattern, so every value at a kept pixel was measured. (Known defect: from_cxi does not do this: NaN are loaded, with their pixels marked as good.)", "quantifier": "every stack of patterns and every mask", "why_tests_cant": "every NaN position", "anchors": ["src/cdtools/datasets/ptycho_2d_dataset.py:__init__", "src/cdtools/datasets/base.py:CDataset.__init__"]}
{"id": "C25", "title": "far-field propagation is unitary and invertible", "statement": "far_field is the centred unitary discrete Fourier transform; far_field and inverse_far_field are inverse to each other, linear, and preserve total intensity, for every array size (odd or even).", "quantifier": "all sizes and all complex wavefields", "why_tests_cant": "all sizes and fields", "anchors": ["src/cdtools/tools/propagators/propagators.py:far_field,inverse_far_field"]}
{"id": "C26", "title": "near-field propagation and its inverse", "statement": "near_field is linear, applying two propagators equals applying their product, never increases energy when |propagator| <= 1, preserves it when |propagator| = 1; inverse_near_field undoes near_field for every wave exactly when |propagator| = 1 everywhere, and otherwise forth and back multiplies each frequency by |propagator|^2.", "quantifier": "all sizes, fields, propagators", "why_tests_cant": "all fields", "anchors": ["src/cdtools/tools/propagators/propagators.py:near_field,inverse_near_field"]}
{"id": "C27", "title": "angular spectrum propagators", "statement": "generate_angular_spectrum_propagator is the angular spectrum formula for either sign of z: modulus 1 on propagating and below 1 on evanescent frequencies, exactly 0 beyond the bandlimit and unchanged within it; propagating by z1 then z2 of equal sign equals z1+z2; the propagator for -z is the conjugate of that for z; z=0 is the identity. generate_generalized_angular_spectrum_propagator gives, for any tilted basis and offset, the phase of the plane wave each pixel stands for over the offset (relative to the carrier if a propagation vector is given) and the decay of evanescent waves. (Known defect: with an oblique propagation vector evanescent waves can be amplified, when the offset lies on the other side of the plane than its component along the vector says.)", "quantifier": "all shapes, spacings, bases, wavelengths, distances, offsets and propagation vectors", "why_tests_cant": "continuous parameters", "anchors": ["src/cdtools/tools/propagators/propagators.py:generate_angular_spectrum_propagator"]}
{"id": "C28", "title": "fourier_upsample keeps the image", "statement": "fourier_upsample(im, f) keeps the summed intensity, or with preserve_mean the mean intensity, and the modulus of every original pixel; when every axis is even or f is odd, it passes exactly through the original pixels and keeps the mean. (Known defect: for odd sizes with an even factor the values are multiplied by an alternating sign, and a constant image can come out with mean zero.)", "quantifier": "all sizes, images and factors", "why_tests_cant": "parity of all sizes", "anchors": ["src/cdtools/tools/image_processing/image_processing.py:fourier_upsample"]}
{"id": "C29", "title": "sub-pixel shifting", "statement": "sinc_subpixel_shift preserves total intensity, by whole pixels equals a circular roll, is additive in the shift and undone by the opposite shift.", "quantifier": "all sizes, images, real shifts", "why_tests_cant": "continuous shifts", "anchors": ["src/cdtools/tools/image_processing/image_processing.py:sinc_subpixel_shift"]}
{"id": "C30", "title": "find_pixel_shift finds the circular shift", "statement": "The result of find_pixel_shift always lies in the symmetric interval of the image size; if im2 is im1 rolled by (a, b) and no Fourier coefficient of im1 vanishes, the result is (-a, -b) modulo the size, so that rolling im2 by it gives im1 back. (Known defect: the documentation promises the opposite direction, the shift of im1 towards im2.)", "quantifier": "all sizes, images and shifts", "why_tests_cant": "all images", "anchors": ["src/cdtools/tools/image_processing/image_processing.py:find_pixel_shift"]}
{"id": "C31", "title": "convolve_1d is circular convolution", "statement": "convolve_1d computes the circular convolution along the chosen dimension, with entry n/2 of the kernel as its origin by default (entry 0 with fftshift_kernel=False); a kernel concentrated there leaves the image unchanged.", "quantifier": "all sizes, images, kernels, dimensions", "why_tests_cant": "all sizes", "anchors": ["src/cdtools/tools/image_processing/image_processing.py:convolve_1d"]}
{"id": "C32", "title": "hann_window", "statement": "hann_window never amplifies and never changes the sign of an image of any shape, and vanishes on the whole border of every square image. (Known defect: for other shapes the two axis lengths are exchanged and the border is not zero.)", "quantifier": "all shapes and images", "why_tests_cant": "non-square shapes", "anchors": ["src/cdtools/tools/image_processing/image_processing.py:hann_window"]}
{"id": "C33", "title": "pixel <-> real-space translations round trip", "statement": "translations_to_pixel and pixel_to_translations are inverse to each other for every basis with independent vectors and every surface normal, neither seen edge-on (the z component, which the documentation says is dropped, comes back as 0); when the basis spans the surface with that normal, the pixel position is the point of the surface with the translation's x and y, along the beam.", "quantifier": "every basis, normal and translation", "why_tests_cant": "continuous", "anchors": ["src/cdtools/tools/interactions/interactions.py:translations_to_pixel,pixel_to_translations"]}
{"id": "C34", "title": "project_translations_to_sample geometry", "statement": "The returned pixel position is the sample point reached from the translated probe by travelling the returned distance along the beam; moving the optics by z along the beam gives the propagation distance -z.", "quantifier": "every sample basis not seen edge-on and every translation", "why_tests_cant": "continuous", "anchors": ["src/cdtools/tools/interactions/interactions.py:project_translations_to_sample"]}
{"id": "C35", "title": "exit wave geometry matches the detector", "statement": "The basis returned by exit_wave_geometry lies in the detector plane and is dual to the detector: one wavefield pixel along axis i times the whole detector along axis j is wavelength times distance when i = j and 0 otherwise; for a rectangular detector, pixel size times shape times detector pixel equals wavelength times distance.", "quantifier": "every parallelogram detector, shape, wavelength and distance", "why_tests_cant": "continuous", "anchors": ["src/cdtools/tools/initializers/initializers.py:exit_wave_geometry"]}
{"id": "C36", "title": "the object array contains every probe position", "statement": "With the object shape and minimum translation from calc_object_setup every window used by the round, linear (probe-shifting) and sinc interactions at the given translations lies inside the object array, at least the padding from its edges, so none of them fails; the smallest translation lands exactly on the padding. (Known defect: with padding 0, linear interpolation of the object reads one pixel beyond the array; with padding >= 1 it does not.)", "quantifier": "all lists of translations, probe shapes, paddings", "why_tests_cant": "all position lists", "anchors": ["src/cdtools/tools/initializers/initializers.py:calc_object_setup", "src/cdtools/tools/interactions/interactions.py:ptycho_2D_round,ptycho_2D_linear,ptycho_2D_sinc"]}
{"id": "C37", "title": "interaction models extract the right object window", "statement": "At whole-pixel translations ptycho_2D_round, linear and sinc all return the probe times the object window at the translation. At any translation round is off by at most half a pixel; linear is exact for every bilinear object (or, shifting the probe, every bilinear probe away from the wrapped edge) and never exceeds the largest modulus of its inputs; sinc keeps the power of the probe over objects of modulus 1, and with shift_back_ew over a uniform object returns the unshifted probe times the object.", "quantifier": "all probes, objects, translations inside the object", "why_tests_cant": "continuous", "anchors": ["src/cdtools/tools/interactions/interactions.py"]}
{"id": "C38", "title": "simulated intensities are physical", "statement": "Without finite-pixel simulation, intensity / incoherent_sum return, below saturation, the mean over the oversampling block of the power summed over modes, plus epsilon; quadratic_background returns that times the pixel's quantum efficiency (if given) plus the squared background. Without a quantum efficiency the values lie between epsilon and saturation; modes add, photons are conserved, isometric mixtures of modes give the same pattern, and the pattern never decreases with the background. (Known defect: with simulate_finite_pixels a non-square wavefield gives a pattern of the wrong shape; square ones keep theirs.)", "quantifier": "all lists of modes, backgrounds, oversamplings, saturations, slices", "why_tests_cant": "continuous", "anchors": ["src/cdtools/tools/measurements/measurements.py"]}
{"id": "C39", "title": "losses are well-behaved", "statement": "Summed amplitude_mse, intensity_mse and poisson_nll are the sums over images and unmasked pixels of their pixel formula; the mean forms divide by the number of unmasked pixels; the MSE losses are >= 0 and 0 exactly when prediction matches on unmasked pixels; masked pixels never matter; summed losses add over concatenated batches; poisson_nll with subtract_min is >= 0 and 0 exactly when sim + eps = data on unmasked pixels.", "quantifier": "all data, predictions, masks", "why_tests_cant": "continuous", "anchors": ["src/cdtools/tools/losses/losses.py"]}
{"id": "C40", "title": "normalised Poisson loss", "statement": "With SimplePoissonNLLNormalizer perfect agreement gives loss 0, and the loss is at least -2 eps^2 for count data (every unmasked pixel 0 or >= 1) and non-negative predictions, at least -2 eps times (unmasked pixels per pixel with a count) for any non-negative data. (Known defect: it is documented as >= 0, but predicting slightly less than the data gives a negative loss.)", "quantifier": "all data, predictions and masks", "why_tests_cant": "continuous", "anchors": ["src/cdtools/tools/losses/losses.py:SimplePoissonNLLNormalizer"]}
{"id": "C41", "title": "generate_subdominant_modes", "statement": "For every number of modes from 1 to 1024 the exponent pairs are the first ones by total order and first exponent, distinct and skipping none; mode k is, in Fourier space, the dominant mode times (u+iv)^a (u-iv)^b (circular) or u^a v^b, times one positive constant, scaled so that its amplitudes sum to the intensity of the dominant mode. No modes (RuntimeError) or more than 1024 (KeyError) are refused. (Known defect: the documentation promises modes with the intensity of the dominant mode, which they do not have.)", "quantifier": "all dominant modes, sizes, numbers of modes, both kinds", "why_tests_cant": "unbounded number of modes", "anchors": ["src/cdtools/tools/initializers/initializers.py:generate_subdominant_modes"]}
{"id": "C42", "title": "orthogonalize_probes and tidy_probes preserve the mutual coherence", "statement": "Given a linear algebra library that is right on its inputs: orthogonalize_probes returns orthogonal modes, strongest first, with the same mutual coherence function (hence the same incoherent intensity) as the probes, or as weight_matrix @ probes; re-expressed weights have orthonormal columns and give back the light field mode by mode; the powers, and every mode whose power is unlike the others up to a phase, depend only on the coherence function. tidy_probes keeps every shot's coherence function and makes basis and shot modes orthogonal and decreasing, whenever it produces weights, which is exactly when no computed basis probe vanishes. (Known defect: for linearly dependent probes the new weights are NaN.)", "quantifier": "all probe stacks, weights and right libraries", "why_tests_cant": "continuous", "anchors": ["src/cdtools/tools/analysis/analysis.py:orthogonalize_probes", "src/cdtools/models/fancy_ptycho.py:tidy_probes"]}
{"id": "C43", "title": "standardisations leave the exit wave unchanged", "statement": "standardize multiplies every mode's exit wave at every position by one factor of modulus 1, so all diffraction patterns are unchanged; the first mode gets mean intensity 1, all modes are divided by the same amplitude, and the sums over every mode and over the object's slice become real and non-negative. remove_phase_ramp changes the exit waves of a position by one factor of modulus 1 and remove_amplitude_exponent, weights included, all of them by one positive factor, whatever the optimiser found. correct_ramp centres the first mode's spectrum when it sits at a whole number of pixels. (Known limit: otherwise one correction does not centre it.)", "quantifier": "all probes, objects, slices, fitted ramps and exponents, positions", "why_tests_cant": "continuous", "anchors": ["src/cdtools/tools/analysis/analysis.py:standardize,remove_phase_ramp,remove_amplitude_exponent"]}
{"id": "C44", "title": "similarity metrics are bounded and phase invariant", "statement": "calc_rms_error is the least root mean square distance over global phases; it is symmetric, phase invariant, zero exactly for fields equal up to a phase, satisfies the triangle inequality, and scales as documented. calc_fidelity is Uhlmann's fidelity: between 0 and the product of the powers, symmetric, independent of the mode decomposition, the squared overlap for single modes. calc_generalized_rms_error is real, zero exactly for equal coherence functions, and agrees with calc_rms_error on single modes. Ring k of the FRC collects the spatial frequencies between k and k+1 bin widths, so the counts are those of the pixels in it. FRC values have modulus at most 1, generalized ones lie in [0, 1], are 1 for equal coherence, and agree with calc_frc on single modes in every ring but the last. (Known defects: calc_generalized_frc's threshold differs from calc_frc's and exceeds 1, its last ring drops the outer edge, and it raises for stacks with different numbers of modes unless one of them has a single mode, and whenever nbins is left out.)", "quantifier": "all fields, mode stacks, rings and right libraries", "why_tests_cant": "continuous", "anchors": ["src/cdtools/tools/analysis/analysis.py:calc_rms_error,calc_fidelity,calc_frc,calc_generalized_rms_error"]}
{"id": "C45", "title": "von Neumann entropy is consistent", "statement": "For stacks, calc_vn_entropy gives one entry per matrix, between 0 and ln n, unchanged by positive rescaling and by a change of orthonormal basis; ln n for the maximally mixed state. (Known defect: for a single matrix it returns the stack's entry minus ln(trace), so it agrees only for trace 1, can be negative and depends on the scale.)", "quantifier": "all positive semidefinite matrices of positive trace, stacks and right libraries", "why_tests_cant": "continuous", "anchors": ["src/cdtools/tools/analysis/analysis.py:calc_vn_entropy"]}
{"id": "C46", "title": "mode power fractions", "statement": "calc_mode_power_fractions returns fractions in [0, 1] that sum to 1, in decreasing order, depending only on the mutual coherence function; with assume_preorthogonalized they are those of the modes given.", "quantifier": "all probe stacks of positive power, weights, right libraries", "why_tests_cant": "continuous", "anchors": ["src/cdtools/tools/analysis/analysis.py:calc_mode_power_fractions"]}
{"id": "C47", "title": "RPI interaction upsampling", "statement": "RPI_interaction multiplies the probe by the trigonometric interpolation of the object on the probe grid, centre pixels coinciding; that interpolation passes through the object's pixels and keeps its mean and mean intensity.", "quantifier": "all probe and object sizes of either parity with the probe at least as large, all fields", "why_tests_cant": "sizes", "anchors": ["src/cdtools/tools/interactions/interactions.py:RPI_interaction"]}
{"id": "C48", "title": "RPI spectral initialisation uses a true adjoint", "statement": "The operator pair used in RPI_spectral_init are adjoint, so the iterated operator is Hermitian and positive semidefinite; unless a probe axis is even and the object axis odd, A_dagger simulates the RPI model up to a constant. (Known defect: in that case it is displaced by one Fourier pixel.)", "quantifier": "all sizes, probes, weights", "why_tests_cant": "sizes", "anchors": ["src/cdtools/tools/initializers/initializers.py:RPI_spectral_init"]}
{"id": "C49", "title": "dataset access", "statement": "dataset[i] returns ((index, translation i), pattern i), negative indices counting from the end, and IndexError outside; entry k of dataset[a:b] is exposure a+k.", "quantifier": "all consistent datasets, all indices and slices", "why_tests_cant": "all indices", "anchors": ["src/cdtools/datasets/base.py:__getitem__", "src/cdtools/datasets/ptycho_2d_dataset.py:_load,__len__"]}
{"id": "C50", "title": "inspect draws the requested plots", "statement": "A call that comes sooner than min_interval after the last changes nothing; any other call that returns draws exactly the plots due (shown level, condition true, first call or figure still open or replot_all), in order, and the figures open afterwards are those open before and those drawn, in both modes; a figure the user closed stays closed until asked for; with one figure per plot an exception in a plot function does not stop the call; redrawing panels does not accumulate callbacks; on the first call both modes draw the same plots if panel conditions follow from plot conditions. (Known defects: with individual figures a panel's own condition is ignored; a plot whose condition becomes true later is never shown without replot_all; when a panel's plot raises, callbacks accumulate.)", "quantifier": "all plot lists, conditions, call times, histories of calls and closed figures", "why_tests_cant": "histories", "anchors": ["src/cdtools/models/base.py:inspect"]}
{"id": "C51", "title": "forward and backward propagators undo each other", "statement": "For every model class and propagation option that offers a backward propagator, backward_propagator(forward_propagator(w)) and forward_propagator(backward_propagator(w)) return w for every wave and image size: FancyPtycho far field, MultislicePtycho, RPI and Bragg2DPtycho without tilt correction. A near-field FancyPtycho's forward propagator never amplifies, and the inverse propagator it stores undoes it when no frequency is evanescent. (Known defects: FancyPtycho.backward_propagator with near_field=True always raises AttributeError; Bragg2DPtycho.backward_propagator with correct_tilt returns None; SimplePtycho has none.)", "quantifier": "all model classes and propagation options, all image shapes, all waves, all geometries", "why_tests_cant": "the claim covers every wave, shape and option combination", "anchors": ["src/cdtools/models/fancy_ptycho.py:forward_propagator,backward_propagator,from_dataset", "src/cdtools/models/bragg_2d_ptycho.py:forward_propagator,backward_propagator", "src/cdtools/models/multislice_ptycho.py:backward_propagator", "src/cdtools/models/rpi.py:backward_propagator"]}
{"id": "C52", "title": "Bragg geometry construction", "statement": "Bragg2DPtycho.from_dataset builds, for every detector geometry and every way to choose the surface normal (argument, scattering mode, dataset orientation) that is not edge-on, an object basis lying in the sample plane, equal to the exit-wave basis displaced along the scattered direction only, and a stored surface normal that is the unit normal of that plane pointing downstream. In reflection mode that normal is the specular one; in transmission mode the plane is perpendicular to the beam. The result does not depend on the length or sign of the given normal, and is reproduced from a dataset simulated by the model. (Known defects: without probe_basis the model lacks its units attribute; a misspelt scattering mode raises AttributeError instead of ValueError.)", "quantifier": "all detector bases, shapes, wavelengths, distances, normals and scattering modes", "why_tests_cant": "continuous family of geometries", "anchors": ["src/cdtools/models/bragg_2d_ptycho.py:from_dataset,__init__,sim_to_dataset"]}
{"id": "C53", "title": "per-shot probe intensities", "statement": "get_probe_intensities returns, for every exposure, the power of that exposure's own probe modes divided by the power of the basis probes: for a list of scalar weights the squared weight, for weight matrices the power of (weight matrix of the shot) applied to the basis probes over the power of the basis probes.", "quantifier": "all probe stacks with non-zero power, all weights, all exposures", "why_tests_cant": "continuous inputs of any size", "anchors": ["src/cdtools/models/fancy_ptycho.py:get_probe_intensities"]}
{"id": "C54", "title": "illumination map", "statement": "make_illumination_map assigns to every object pixel the sum, over the shots whose probe window covers that pixel, of the probe intensity (summed over modes, and rescaled to the requested total if one is given) at the corresponding probe pixel; pixels no window covers get zero; the map's total is therefore the number of shots times the total probe intensity, independently of the positions.", "quantifier": "all probes, object sizes, shot counts and in-range integer positions (including overlaps)", "why_tests_cant": "a sum over arbitrary many overlapping windows at arbitrary positions; the failure mode (lost or doubled contributions) depends on the overlap pattern", "anchors": ["src/cdtools/tools/analysis/analysis.py:make_illumination_map"]}
{"id": "C55", "title": "A whole model can be rebuilt from its saved results", "statement": "For SimplePtycho, FancyPtycho, MultislicePtycho, Bragg2DPtycho and RPI: build a model with any arguments the constructor accepts (dtype float32; a support, if given, of the shape of one mode; for RPI weight_matrix=False), train it or edit its parameters in any way, including changing the number of probe modes and of weights the way tidy_probes does; then whenever save_results succeeds, from_results_dict applied to the dictionary, or to what comes back after writing it to an HDF5 file and reading it, returns a model with exactly the same buffers, parameters (values, shapes, types, requires_grad), loss function, loss history, epoch count and training history. save_results of the three ptychography models succeeds exactly when the model has weights and translations are known from the dataset or stored in the model. Known limits: a float64 model comes back with float32 buffers; RPI's weight_matrix=True is forgotten; a 2-D probe with a support of its own shape cannot be reloaded (RuntimeError); the probe_fourier_shifts argument of FancyPtycho is ignored (translation_offsets is used in its place, TypeError when there are none).", "quantifier": "all constructor arguments, all parameter values reached by training, all loss histories, epochs and histories; in memory and through a file", "why_tests_cant": "a test reloads one or two configurations; optional arguments, supports, mode counts and types combine into far more, and only some combinations fail", "anchors": ["src/cdtools/models/base.py: CDIModel.save_results, _load_results_dict, save_to_h5, from_results_h5", "src/cdtools/models/fancy_ptycho.py: FancyPtycho.__init__, save_results, from_results_dict", "src/cdtools/models/multislice_ptycho.py", "src/cdtools/models/bragg_2d_ptycho.py", "src/cdtools/models/rpi.py", "src/cdtools/models/simple_ptycho.py"]}
{"id": "C56", "title": "near-field models use the equivalent parallel-beam geometry", "statement": "A near-field FancyPtycho built from a dataset propagates with the angular spectrum formula for the demagnified pixel pitch and the effective distance: with a point source a distance p > 0 upstream, pitch = detector pitch / (oversampling (p+d)/p) and 1/z = 1/p + 1/d; without a source distance (None or 0), the detector pitch / oversampling and z = d. (Known defect: for a focus between sample and detector, -d < p < 0, the stored propagator is the one for the opposite distance.)", "quantifier": "all pixel pitches, shapes, wavelengths, distances, oversamplings and source distances", "why_tests_cant": "continuous family of geometries and all pixels of the propagator", "anchors": ["src/cdtools/models/fancy_ptycho.py:from_dataset", "src/cdtools/tools/propagators/propagators.py:generate_generalized_angular_spectrum_propagator"]}
{"id": "C57", "title": "initial weights reproduce the recorded intensities", "statement": "When a dataset records per-exposure intensities, a FancyPtycho built from it starts with positive weights of mean 1 whose squares are proportional to the intensities; without them every weight is 1. A density-matrix model of rank r (or -1 for full rank) starts with the first r basis modes unchanged in every exposure, and a rank above the number of modes is refused with KeyError. (Known defect: MultislicePtycho uses the intensities, not their square roots, as amplitude weights: they have mean 1 and are proportional to the intensities themselves.)", "quantifier": "all lists of positive intensities, all ranks and mode counts", "why_tests_cant": "holds for every intensity list and rank", "anchors": ["src/cdtools/models/fancy_ptycho.py:from_dataset", "src/cdtools/models/multislice_ptycho.py:from_dataset"]}
{"id": "C58", "title": "Fourier-cropping the probe keeps its field of view", "statement": "With probe_fourier_crop=c, the probe basis of FancyPtycho times the probe's pixel count equals the object basis times the uncropped pixel count, for every oversampling and every crop that leaves pixels. (Known defect: Bragg2DPtycho and MultislicePtycho satisfy this exactly when oversampling is 1.)", "quantifier": "all bases, detector sizes, oversamplings and crops", "why_tests_cant": "holds for every size, crop and oversampling", "anchors": ["src/cdtools/models/fancy_ptycho.py:from_dataset", "src/cdtools/models/bragg_2d_ptycho.py:from_dataset", "src/cdtools/models/multislice_ptycho.py:from_dataset"]}
{"id": "C59", "title": "multislice propagation uses the object's pixel pitch", "statement": "The propagator MultislicePtycho applies between slices is the angular spectrum propagator over dz for the object's pixel pitch, for every shape, wavelength and spacing with square pixels. (Known defect: with rectangular pixels the two pitches are exchanged.)", "quantifier": "all shapes, pitches, wavelengths, slice spacings and pixels", "why_tests_cant": "continuous parameters", "anchors": ["src/cdtools/models/multislice_ptycho.py:from_dataset"]}
{"id": "C60", "title": "simulated datasets", "statement": "sim_to_dataset returns the same patterns in the same order for every calculation_width >= 1 and every non-empty list of exposures, and records a right-handed orthonormal sample orientation whose third row is the model's unit surface normal, unless that normal is along y. (Known defect: no exposures, or calculation_width=0, is a ValueError.)", "quantifier": "all per-exposure forward models, exposure lists, chunk sizes and normals", "why_tests_cant": "holds for every number of exposures and chunk size", "anchors": ["src/cdtools/models/fancy_ptycho.py:sim_to_dataset", "src/cdtools/models/multislice_ptycho.py:sim_to_dataset", "src/cdtools/models/bragg_2d_ptycho.py:sim_to_dataset"]}
{"id": "C61", "title": "corrected translations are the simulated positions", "statement": "corrected_translations returns, for every exposure, the real-space translation whose pixel position (with no offset) is the position at which the model simulates that exposure, offsets and translation_scale included, for FancyPtycho, MultislicePtycho and Bragg2DPtycho; the correction is lateral (its z component is 0). (Known defect: Bragg2DPtycho does not update the propagation distance of a corrected position on a tilted sample.)", "quantifier": "all non-degenerate bases and normals, translations, offsets and scales", "why_tests_cant": "continuous parameters", "anchors": ["src/cdtools/models/fancy_ptycho.py:corrected_translations,interaction", "src/cdtools/models/bragg_2d_ptycho.py:corrected_translations,interaction"]}
{"id": "C62", "title": "FancyPtycho simulates the physics it documents", "statement": "For every FancyPtycho whose arrays fit together and every exposure, without probe translation masks, the exit wave of each mode is probe_norm times the trigonometric interpolation of the shot's probe mode (its weights applied to the basis modes inside the support, inverse transformed for a Fourier-space probe) displaced by the fractional part of the exposure's pixel position on the object's grid, power kept, times what the object window at the whole-pixel part transmits (exp(i obj), exp(i Re obj) or obj), moved back by the fractional part for near-field models; the simulated pattern is the power of these waves after the centred unitary Fourier transform (or near-field propagation), averaged over the oversampling block, plus 1e-7, times the quantum efficiency, plus the squared background, at most the saturation. At whole-pixel positions with an uncropped probe the exit wave is exactly probe times object window. The object array from_dataset lays out contains every window as long as position corrections stay within obj_padding. (Known defects: weights=None with a single index is a TypeError; simulate_probe_translation without probe_fourier_shifts is a RuntimeError; a probe of odd size in an even wavefield is padded off centre.)", "quantifier": "all sizes, oversamplings, crops, probes, weights, objects, positions, offsets, backgrounds, far and near field", "why_tests_cant": "continuous fields, positions and unbounded sizes", "anchors": ["src/cdtools/models/fancy_ptycho.py:interaction,forward_propagator,measurement", "src/cdtools/tools/interactions/interactions.py:ptycho_2D_sinc,translations_to_pixel", "src/cdtools/tools/measurements/measurements.py:quadratic_background,incoherent_sum", "src/cdtools/models/base.py:forward"]}
{"id": "C63", "title": "Symmetries of the FancyPtycho forward model", "statement": "No simulated pattern changes when the probe is multiplied by c and what the object transmits by d with |c d| = 1 - in particular probe * c with object / c, or a global phase of the object (added to an exponentiated one) -, when the object array is moved by whole pixels with min_translation moved along, or when the modes of an exposure are mixed by any matrix with orthonormal columns (single object plane). Multiplying an exposure's scalar weight by a multiplies its photons by a^2.", "quantifier": "all models, exposures, factors, phases, whole-pixel moves and isometries", "why_tests_cant": "continuous groups acting on continuous fields", "anchors": ["src/cdtools/models/fancy_ptycho.py:interaction,forward_propagator,measurement"]}
{"id": "C64", "title": "Photon budget of the FancyPtycho forward model", "statement": "If the object transmits everything (modulus 1), the simulated pattern less background (no quantum efficiency mask or saturation) holds exactly the photons of the incident modes, probe_norm^2 times the power of the weighted probe modes inside the support, at every position and for every oversampling and probe_fourier_crop, in the far field or with a propagator of modulus 1; if the object amplifies nowhere it holds at most those. An exponentiated phase_only object transmits everything; an exponentiated object with imaginary part >= 0 amplifies nowhere. (Known limit: phase_only has no effect in the forward model unless exponentiate_obj is set.)", "quantifier": "all models, exposures, positions, objects", "why_tests_cant": "an exact conservation law over continuous fields and all sizes", "anchors": ["src/cdtools/models/fancy_ptycho.py:interaction,forward_propagator,measurement"]}
{"id": "C65", "title": "Probe Fourier shifts", "statement": "With probe_fourier_shifts, for a list of exposures, every probe mode of an exposure is multiplied by the phase ramp of its shift, 2 pi oversampling (d0 i/(n0-1) + d1 j/(n1-1)), where simulate_probe_translation adds the sample translation in detector pixels; at a whole-pixel position with an uncropped probe, far field, the pattern with shift (z0 (n0-1)/n0, z1 (n1-1)/n1) is the pattern without shift moved circularly by (z0, z1) detector pixels. (Known defects: the simulated shift is therefore n/(n-1) times the one asked for - one pixel on a two-pixel probe is no shift at all; a single index is an IndexError.)", "quantifier": "all models, exposures, shifts", "why_tests_cant": "continuous shifts and fields", "anchors": ["src/cdtools/models/fancy_ptycho.py:__init__,interaction"]}
{"id": "C66", "title": "MultislicePtycho forward model", "statement": "For every MultislicePtycho whose arrays fit together and every exposure, each weighted probe mode is brought to the object's grid and taken through the slices in order; every slice displaces it by the fractional part of the position, multiplies it by the slice's window and propagates it to the next plane; the pattern is the incoherent sum of the powers of the centred Fourier transforms, block-averaged, plus background, up to saturation. Slices that transmit everything and a propagator of modulus 1 conserve every photon of the weighted modes, whatever the number of slices; a single slice gives FancyPtycho's pattern. (Known defects: the fractional displacement is applied again at every slice, so the second slice is illuminated displaced by twice the fraction; the wave is propagated after the last slice too.)", "quantifier": "all models, numbers of slices, exposures, positions, probes, objects", "why_tests_cant": "continuous fields and any number of slices", "anchors": ["src/cdtools/models/multislice_ptycho.py:interaction,forward_propagator,measurement"]}
{"id": "C67", "title": "SimplePtycho forward model", "statement": "SimplePtycho simulates each exposure at the whole-pixel position nearest (within half a pixel on both axes) to its translation: normalised probe times the object window starting there, power of the centred unitary Fourier transform plus 1e-7. At whole-pixel positions it agrees with a FancyPtycho of the same geometry, probe and object.", "quantifier": "all models, translations, probes, objects", "why_tests_cant": "continuous translations and fields", "anchors": ["src/cdtools/models/simple_ptycho.py:interaction,forward_propagator,measurement"]}
{"id": "C68", "title": "RPI forward model", "statement": "The pattern RPI simulates is the incoherent sum over all pairs of a probe mode and an object mode of the power of the centred unitary Fourier transform of their exit wave (probe times object band-limitedly upsampled to the probe's grid, object cut to its support after exponentiation), averaged over the oversampling block, plus 1e-7 and the squared background, at most the saturation; a change of basis of the incoherent probe modes changes no pattern; the stored obj_basis gives the object the extent of the probe when both axes are upsampled alike. (Known defect: with different factors on the two axes they are exchanged in obj_basis.)", "quantifier": "all models, probes, objects, unitary mixings, sizes", "why_tests_cant": "continuous fields and a continuous group of mixings", "anchors": ["src/cdtools/models/rpi.py:__init__,interaction,forward_propagator,measurement", "src/cdtools/tools/interactions/interactions.py:RPI_interaction"]}
{"id": "C69", "title": "Bragg2DPtycho forward model", "statement": "For every Bragg2DPtycho whose sample plane does not contain the beam and every exposure of a batch, the position and propagation distance are those of the point of the sample plane reached from the translation along the beam (less min_translation and median_propagation, plus scaled translation_offsets); each weighted probe mode is carried by that distance with the angular spectrum phase of every propagating plane wave relative to the beam (propagate_probe), brought to the object's grid, displaced by the fractional part of the position and multiplied by the object window; without correct_tilt the pattern is the incoherent sum of the powers of the centred Fourier transforms, block-averaged, plus background, up to saturation; an object of modulus 1 conserves every photon at every position and distance; opposite distances give conjugate propagators and distances add up. (Known limit: evanescent components keep their amplitude instead of decaying.)", "quantifier": "all models, exposures, tilts, distances of either sign, probes, objects", "why_tests_cant": "continuous geometry and fields", "anchors": ["src/cdtools/models/bragg_2d_ptycho.py:__init__,interaction,forward_propagator,measurement"]}
{"id": "C70", "title": "Only the mutual coherence matters; tidy_probes is invisible", "statement": "For every FancyPtycho with a single object plane and every exposure, two sets of probe modes and weights that give the exposure the same mutual coherence function (within the probe support) give it the same simulated pattern, whatever the object, position, propagation, oversampling and detector; hence tidy_probes (with weight matrices, whenever its new weights are numbers, or with one weight per exposure) changes no simulated pattern. (Known limit: with several object planes the modes are paired with the planes, and tidy_probes changes the pattern.)", "quantifier": "all models, weights, probes, objects, exposures, linear algebra libraries that are right on their inputs", "why_tests_cant": "continuous fields and all decompositions a library may return", "anchors": ["src/cdtools/models/fancy_ptycho.py:tidy_probes,interaction,measurement", "src/cdtools/tools/analysis/analysis.py:orthogonalize_probes"]}
{"id": "C71", "title": "center moves a stack rigidly to the middle", "statement": "image_processing.center gives numbers exactly for stacks that do not vanish; it moves all images of a stack by one common circular sub-pixel shift, so that the power of each and all inner products are kept, scales with its input, composes over iterations, leaves alone a stack whose centre of mass (of summed power, or magnitude) is (N/2, M/2), and moves a stack whose centre of mass is a whole number of pixels away and that fits inside exactly there, where it stays for any further iteration; the centroid lies among the pixels that carry weight; center_probes does this to the real-space probe, also when the probe is stored in Fourier space. (Known limit: for odd sizes N/2 is half a pixel past the central pixel.)", "quantifier": "all stacks, sizes, numbers of iterations, both weightings", "why_tests_cant": "arbitrary images and iteration counts", "anchors": ["src/cdtools/tools/image_processing/image_processing.py:center,centroid,sinc_subpixel_shift", "src/cdtools/models/fancy_ptycho.py:center_probes"]}
{"id": "C72", "title": "find_shift and find_subpixel_shift find circular shifts exactly", "statement": "For an image whose spectrum vanishes nowhere, both sides at least 30 pixels, and a circularly rolled copy, find_shift returns the roll exactly (with find_pixel_shift's sign: rolling im2 by it gives im1 back) at every resolution, and find_subpixel_shift does for every roll that lies within -15..14 pixels of search_around on each axis. Whatever the images, the result of find_subpixel_shift lies within -15 (included) and 15 (excluded) pixels of search_around, on a grid of step 1/resolution, and constant non-zero factors on the images do not change it. (Known defect: when a side has 2 to 29 pixels both functions raise a RuntimeError for every resolution above 1.)", "quantifier": "all images with non-vanishing spectrum, sizes, rolls, search_around, resolutions", "why_tests_cant": "arbitrary images, sizes and resolutions", "anchors": ["src/cdtools/tools/image_processing/image_processing.py:find_subpixel_shift,find_shift,find_pixel_shift"]}
{"id": "C73", "title": "A new model holds exactly what it was given", "statement": "Building a FancyPtycho, MultislicePtycho or Bragg2DPtycho succeeds exactly if a background and one of the six loss names (any case, blanks around it ignored) are given, and translation_offsets with probe_fourier_shifts, a detector distance with correct_tilt; RPI needs the loss name only; SimplePtycho always succeeds. The new model then holds every argument under its name, converted to the documented type, and None for what was not given; weights are real if one per exposure, complex otherwise; an optimiser changes exactly probe, object, background, and the weights and offsets that exist (RPI: the object, and the weights only with weight_matrix); qe_mask, masks and geometry never. The probe a simulation uses, probe_norm x probe, is the guess cut to its support, and the offsets it adds, translation_scale x translation_offsets, are the offsets given.", "quantifier": "all constructor arguments of the five models; exact arithmetic for the last sentence, probe guesses whose first mode does not vanish, non-zero scale", "why_tests_cant": "arbitrary combinations of some thirty optional arguments", "anchors": ["src/cdtools/models/fancy_ptycho.py:FancyPtycho.__init__", "src/cdtools/models/multislice_ptycho.py:MultislicePtycho.__init__", "src/cdtools/models/bragg_2d_ptycho.py:Bragg2DPtycho.__init__", "src/cdtools/models/rpi.py:RPI.__init__", "src/cdtools/models/simple_ptycho.py:SimplePtycho.__init__"]}
{"id": "C74", "title": "The probe initializers reproduce the data they are made from", "statement": "For every dataset with patterns and non-negative averages: SHARP_style_probe without oversampling has as far-field intensity exactly the average of the patterns (masked pixels 0), less the background and clipped at 0, with phase 0 everywhere; a propagation distance raises that intensity nowhere and changes it at no pixel within 45 degrees of the axis; with any oversampling the guess holds as many photons as the average pattern. gaussian_probe holds the mean number of photons of a pattern (the mask is not used) and is, pixel by pixel, a constant times the Gaussian beam of the given widths at its focus, the propagation distance away. STEM_style_probe's far field has one and the same non-negative value at every pixel seen within the given angle of the centre of mass of the mean pattern and 0 elsewhere, and holds photons in proportion to the guess's and the detector's number of pixels; a propagation distance keeps its far-field modulus within 45 degrees. The near-field guess, propagated to the detector, has the average pattern as intensity when no frequency is evanescent, and the right number of photons with any oversampling.", "quantifier": "all datasets (patterns, masks, backgrounds, geometries, wavelengths), oversampling factors, propagation distances, widths, angles; exact arithmetic", "why_tests_cant": "arbitrary data, sizes and geometries", "anchors": ["src/cdtools/tools/initializers/initializers.py:SHARP_style_probe,SHARP_style_near_field_probe,gaussian,gaussian_probe,STEM_style_probe"]}
{"id": "C75", "title": "from_dataset builds a model that already explains the average of the data", "statement": "For every dataset with light on it and every combination of options that fit together, FancyPtycho.from_dataset succeeds and the model can simulate every exposure of the dataset, asked for alone or in a list; an empty dataset, a probe_fourier_crop that leaves nothing and a density matrix larger than the number of modes are refused. With one probe mode, no random phases and no support, without oversampling, the pattern simulated for every exposure is, before any reconstruction, the average pattern less the background, times the recorded relative intensity, as the detector (background, quantum efficiency, saturation) reads it, in the far field (0 on pixels removed by probe_fourier_crop) and in the near field. SimplePtycho.from_dataset likewise simulates the average pattern plus 1e-7. The model's grid is dual to the detector (far field) or the detector's divided by oversampling and magnification (near field), and every exposure is simulated, up to an origin common to all, at the place of that grid to which the scattered wave carries the point where the beam displaced by its translation meets the sample surface (normal by scattering mode, else orientation, else the beam). With a support radius nothing illuminates the sample beyond it and nothing changes within it; the starting object shifts the phase by at most half of randomize_ang; further probe modes hold at most 1.5 percent of the first one's peak. (Known defect: with simulate_probe_translation but without allow_probe_fourier_shifts no exposure of the model can be simulated. Known limit: with oversampling the simulated patterns hold 1/oversampling^2 of the photons.)", "quantifier": "all datasets, options and random numbers; every exposure and pixel; exact arithmetic", "why_tests_cant": "arbitrary data and combinations of some twenty options", "anchors": ["src/cdtools/models/fancy_ptycho.py:FancyPtycho.from_dataset", "src/cdtools/models/simple_ptycho.py:SimplePtycho.from_dataset"]}
{"id": "C76", "title": "MultislicePtycho.from_dataset builds a model that already explains the average of the data", "statement": "For every dataset with light on it and every combination of options that fit together, without oversampling, MultislicePtycho.from_dataset succeeds and the model can simulate every exposure, asked for in a list and (without simulate_probe_translation) alone; an empty dataset, no slices, a probe_fourier_crop that leaves nothing and a density matrix larger than the number of modes are refused. With one probe mode, no random phases and no support, the pattern simulated for every exposure through any number of slices is, before any reconstruction, the average pattern less the background times the square of the exposure's weight, plus 1e-7, as the detector reads it, at every pixel the crops spare whose wave can propagate between slices (square detectors: every pixel within 45 degrees), nothing where a crop cuts, and never more. With any random phases in the slices and no crops every simulated pattern holds the square of the weight times the photons of the average pattern. The grid is dual to the detector, and every exposure is simulated at the place of it that its translation and the sample surface give, up to a common origin. (Known defects: with oversampling above 1 no exposure can be simulated; probe_shape is always a TypeError; density matrices together with recorded intensities are refused unless the numbers of exposures and modes agree, and then weight modes instead of exposures.)", "quantifier": "all datasets, options, numbers of slices and random numbers; every exposure and pixel; exact arithmetic", "why_tests_cant": "arbitrary data and combinations of options", "anchors": ["src/cdtools/models/multislice_ptycho.py:MultislicePtycho.from_dataset"]}
{"id": "C77", "title": "The high-NA far field maps every detector pixel to the direction it sees", "statement": "For every sample basis, detector basis, shape, distance and wavelength, high_NA_far_field with the maps of generate_high_NA_k_intensity_map gives detector pixel (i, j) the far field of the wavefront, interpolated linearly between the four neighbours (0 outside), at the place of the plane wave that travels from the sample to that pixel (behind a lens: whose transverse wave vector is proportional to the pixel's offset), times one factor that is the cosine of the angle of incidence times the inverse square of the pixel's distance in units of the nearest pixel's (1 behind a lens). For the sample grid conjugate to the detector that place is the pixel's own index contracted towards the middle by the cosine, minus a shift proportional to the tilt of the sample; behind a lens and without tilt the result is exactly far_field. On detectors with odd sides the middle pixel receives exactly the zero frequency. The factor is in (0, 1]; the map is linear in the wavefront; stacks of 2, 3 and 4 dimensions are treated alike, others raise IndexError. Bragg2DPtycho with correct_tilt simulates these waves as the detector reads them, for every oversampling; behind a lens and untilted it agrees with correct_tilt=False. (Known defect: the factor, documented as an intensity correction, multiplies the amplitude, so that every pixel off the axis is simulated too dark.)", "quantifier": "all sample and detector bases, shapes, distances, wavelengths, wavefronts, pixels; exact arithmetic", "why_tests_cant": "continuous family of geometries and arbitrary wavefronts", "anchors": ["src/cdtools/tools/propagators/propagators.py:generate_high_NA_k_intensity_map,high_NA_far_field", "src/cdtools/models/bragg_2d_ptycho.py:Bragg2DPtycho.forward_propagator"]}
{"id": "C78", "title": "Bragg2DPtycho.from_dataset builds a model that starts from the data", "statement": "For every dataset with non-negative average signal and all options that fit together, and for every sample surface (argument surface_normal, else scattering_mode, else the dataset's orientation, else transmission) that neither the beam nor the scattered wave grazes, Bragg2DPtycho.from_dataset returns a model that can simulate every exposure of the dataset, whatever propagate_probe, correct_tilt, lens, oversampling, probe_fourier_crop (a pair of positive numbers), support radius and random numbers. The object grid lies in that surface and is the exit-wave grid displaced along the scattered direction only; exposure k is simulated where the beam through its translation meets the surface, and the probe is carried by its distance to the surface less the median of these distances (at most half of them lie on either side). The model keeps the settings and the detector geometry it was given, and its probe grid spans the field of the object's (without oversampling). With one mode, no random phases, no support and oversampling 1 the pattern simulated for every exposure, with or without probe propagation, is the average pattern of the data less the background, as the detector reads it (nothing on the pixels cropped away; with a propagation distance, at the pixels within 45 degrees of the axis); with correct_tilt this holds behind a lens for a surface across the scattered direction. With random phases and any oversampling the photons of every exposure still add up to those of the average pattern. Empty datasets, normals that are not three numbers, unknown scattering modes and propagate_probe or correct_tilt other than True and False are refused. (Known defects: intensities recorded in the dataset are ignored, unlike in FancyPtycho and MultislicePtycho; with oversampling and a crop the probe's grid spans a smaller field than the object's; a probe_fourier_crop with a 0 on one axis is refused with RuntimeError.)", "quantifier": "all datasets, surfaces, options and random numbers; exact arithmetic", "why_tests_cant": "composition of geometry, initial guess and forward model over all datasets and options", "anchors": ["src/cdtools/models/bragg_2d_ptycho.py:Bragg2DPtycho.from_dataset,Bragg2DPtycho.__init__,Bragg2DPtycho.interaction", "src/cdtools/tools/initializers/initializers.py:SHARP_style_probe,calc_object_setup"]}
{"id": "C79", "title": "RPI.from_dataset and RPI.from_calibration build a model that starts from the probe", "statement": "For every dataset, probe and object size that fit together (the probe covers the oversampled detector, the object array is smaller along both axes), a random or uniform initialisation, any number of object modes, threshold, saturation and random numbers, and a background in the arguments or the dataset (or no oversampling), RPI.from_dataset returns a model that simulates batches of any size: every probe mode behind every object mode, each of them a pure phase (random) or transparent (uniform) object cut to the support, plus 1e-7 and the background, at most the saturation. The support consists of the pixels where the total amplitude of the probe modes, restricted to the Fourier window of the object array, exceeds the given fraction of its peak, and of their direct neighbours; at a threshold of 1 or more it is empty, below 1 it is not empty if the probe has any light. Whether the object is stored as a transmission or as its logarithm, phase only or not, is invisible in the starting pattern. A uniform start behind a full support is the measurement of the bare probe. The probe lives on the exit-wave grid of the detector and the object (default size, even axes) on one with pixels twice as large. init_obj starts a model with a plain object again exactly as from_dataset would have with that initialisation. from_calibration builds the same with the probe and background of a calibration and full support; made from the results a FancyPtycho saves (saved with one object mode, unit weights, no oversampling), its uniform start is the pattern which that FancyPtycho simulates behind a transparent sample at a whole-pixel position. Empty datasets and unknown initialisations are refused. (Known defects: an object with as many pixels as the probe along an axis is refused with RuntimeError; the Fourier window of the support is one pixel off centre for an even probe and an odd object; oversampling without a background gives a model that cannot simulate; phase_only without exponentiate_obj takes the real part of the object; spectral initialisation always fails; init_obj on an exponentiating model exponentiates the transmissions; init_obj cannot change the object's size; from_calibration drops the saturation, its default background breaks batches if there are several probe modes, and the detector geometry it stores is infinite for every probe basis with a vanishing component.)", "quantifier": "all datasets, calibrations, probes, sizes, options and random numbers; exact arithmetic", "why_tests_cant": "composition of initial guess, support and forward model over all datasets, sizes and options", "anchors": ["src/cdtools/models/rpi.py:RPI.from_dataset,RPI.from_calibration,RPI.init_obj,RPI.__init__,RPI.interaction,RPI.measurement"]}
{"id": "C80", "title": "standardize_reconstruction_set and _pair compare reconstructions without changing them", "statement": "For all reconstructions (objects, probe stacks, weights, translations, bases), windows, numbers of rings, frequency limits, and every optimiser that never answers with a worse point than it starts from, without the amplitude correction: a successful standardize_reconstruction_set returns the full reconstruction with the same exit wave, up to a phase, at every position of the probe, and each half so once its object is moved back by the whole number of tenths of a pixel it was shifted by; standardize_reconstruction_pair returns the first reconstruction so, and the second once its object and probe are moved back. Weights, translations, backgrounds, wavelength and bases are handed through. With the phase offset correction the sum of the full (first) object over the window is real and not negative, and global phases of the input objects change no result. The set: an object whose apodized amplitude is a rolled copy of the full one's, up to scale, is moved back by that many pixels. The correlations are those of the apodized windows of the returned objects, of modulus at most 1; the ssnr is the signal to noise ratio that they imply (twice it for a set, which is the ratio of the full reconstruction). Identical objects up to global phases (and, for the pair, probes equal up to a phase and a common roll) come back equal, with every correlation 1 in rings with signal and both probe errors 0. The normalised probe error lies in [0, 1], the probe correlations in [0, 1]. With a phase ramp or amplitude correction the inputs of the pair are left alone. (Known defects: the set's objects are shifted but their probes and translations are not, so the returned halves no longer describe the measurement; windows of different shape and windows below 30 pixels raise; the set's amplitude correction raises KeyError on every saved reconstruction, since it looks for a key 'basis' which is not saved; the pair's amplitude correction changes the relative strength of the exposures, since it does not correct the weights; the pair raises for stacks with different numbers of modes, neither 1, and, without corrections, overwrites the probe of its second argument, even when it raises.)", "quantifier": "all reconstructions, windows, options, and optimisers; exact arithmetic", "why_tests_cant": "continuous families of inputs; an unspecified optimiser; effects on the caller's arrays on success and on failure", "anchors": ["src/cdtools/tools/analysis/analysis.py:standardize_reconstruction_set,standardize_reconstruction_pair,remove_phase_ramp,remove_amplitude_exponent,calc_generalized_frc"]}
{"id": "C81", "title": "synthesize_reconstructions averages aligned standard forms", "statement": "For all lists of probes and objects, either alignment (by probe or by object), every region and with or without the ramp correction: when synthesize_reconstructions succeeds, there is for every pair that takes part (as many as the shorter list has) a standard form - same exit waves up to a phase per mode and position, first mode of mean intensity 1, real non-negative sums of every mode and of the object over the region - and a shift (none for the first, whole fiftieths of a pixel for the others) such that the returned stack holds the shifted standard objects, the returned object is the mean of the stack, and the returned probe is the mean of the equally shifted standard probes; all objects are cut to the least number of rows and of columns in the list. It succeeds for equally shaped 3-D probes of at least 30 pixels a side (when aligning by probe) or regions of at least 30 pixels a side (when aligning by object). If every further reconstruction is a copy of the first - scaled reciprocally in probe and object, with any phases, and rolled - the result equals the synthesis of the first alone and every object of the stack equals the first: the average undoes scale, phase and roll. (Known defects: with two or more reconstructions and objects below 120 pixels a side, aligning by object in the default region raises ValueError; aligning by probe raises IndexError for the 2-D probes the documentation allows; surplus objects are ignored but still count for the common size.)", "quantifier": "all lists of probes and objects, regions, alignment modes; exact arithmetic", "why_tests_cant": "lists of any length of arrays of any size and content", "anchors": ["src/cdtools/tools/analysis/analysis.py:synthesize_reconstructions,standardize", "src/cdtools/tools/image_processing/image_processing.py:find_shift,sinc_subpixel_shift"]}
{"id": "C82", "title": "calc_consistency_prtf is the mean ratio of ring powers", "statement": "For all objects, bases, slices and numbers of bins: calc_consistency_prtf succeeds when there is an object, every compared part has the shape of the synthesized object's part and there is at least one bin; the frequencies are the lower edges of rings of equal width from 0 to the largest frequency of the spectrum, every frequency lies in that range, and the value of a ring is the mean over the objects of the ratio of the power of the synthesized object to the power of the object in the ring. Multiplying the synthesized object by c multiplies every value by |c|^2; global phases and rolls of the compared parts change nothing; when every object is the synthesized one up to a phase and a roll, the values are 1 in rings with signal. With one bin the value is the mean ratio of the total intensities of the compared parts. When the synthesized object is the mean of the objects, every value is between 0 and the product of the mean power and the mean inverse power of the objects in the ring, hence at most 1 where all objects have the same power. (Known defects: unlike a transfer function, the value can exceed 1: it is 20/9 in every ring with signal for an object and three times it; with the default region and number of bins, objects below 16 pixels a side raise ValueError.)", "quantifier": "all lists of objects, bases, slices, bin numbers; exact arithmetic", "why_tests_cant": "continuous families of images of any size and lists of any length", "anchors": ["src/cdtools/tools/analysis/analysis.py:calc_consistency_prtf"]}
{"id": "C83", "title": "calc_spectral_info scales the summed pattern to one detector field of view", "statement": "For every data set, number of bins and function that finds the area of the scan: calc_spectral_info returns a pattern that is 0 at masked pixels and elsewhere the sum of all patterns times the ratio of (wavelength * distance)^2 / (area of a detector pixel) - the field of view conjugate to the detector, whatever the number of pixels and also for an oblique detector basis - and the area of the scan, so that the total per field of view equals the total counts per scanned area; when no area is found the pattern is the mean pattern. For a rectangular detector the frequencies are the lower edges of rings of equal width from 0 to the largest frequency along the axes, the frequency of a pixel being its distance on the detector from pixel (h/2, w/2) over wavelength * distance, and the third result of a ring is the mean of the pattern over the unmasked pixels in it, hence between the least and largest value there. The order of the exposures does not matter. It raises, ValueError, only without patterns or bins. (Known limits: the third result is documented as a signal to noise ratio but is the mean pattern; pixels beyond the largest axial frequency enter no ring, which on a square detector with an even number of pixels a side includes the whole first row and column.)", "quantifier": "all data sets, bin numbers and hull functions; exact arithmetic", "why_tests_cant": "continuous families of geometries, any number of patterns of any size", "anchors": ["src/cdtools/tools/analysis/analysis.py:calc_spectral_info", "src/cdtools/tools/initializers/initializers.py:exit_wave_geometry"]}
{"id": "C84", "title": "Multislice2DPtycho crosses the planes in order and propagates only between them", "statement": "For every Multislice2DPtycho (one plane used nz times, or one plane per slice; with or without prevent_aliasing, subpixel, Fourier probe, per-shot weights) whose arrays fit together and every exposure: interaction() returns one wave per mode of the shot, the weighted mode taken through the planes in order, propagated with the angular-spectrum propagator of dz between them and not behind the last; the simulated pattern is the photons of their centred Fourier transforms (of the finer grid the middle frequencies), averaged over the oversampling block, at the pixels of the detector slice, plus background, up to saturation. Without prevent_aliasing: at fractional parts below one half every plane is crossed at the same place; transparent planes keep every photon, whatever their number; a single plane gives FancyPtycho. (Known limits: at a fractional part above one half later planes are displaced by one pixel against the first; with the defaults subpixel and prevent_aliasing the first plane is crossed at twice its scale, and is an error when it only contains the field of view; the bandlimit has no effect; from_dataset is always a TypeError; weights=None is a TypeError; tidy_probes keeps the old probe with the new weights and so resets the recorded power.)", "quantifier": "all models, positions, numbers of planes and modes, exposures; exact arithmetic", "why_tests_cant": "continuous families of models and positions, any number of planes and sizes", "anchors": ["src/cdtools/models/multislice_2d_ptycho.py:Multislice2DPtycho.interaction", "src/cdtools/models/multislice_2d_ptycho.py:Multislice2DPtycho.measurement", "src/cdtools/models/multislice_2d_ptycho.py:Multislice2DPtycho.tidy_probes", "src/cdtools/models/multislice_2d_ptycho.py:Multislice2DPtycho.from_dataset", "src/cdtools/tools/interactions/interactions.py:ptycho_2D_round"]}
{"id": "C85", "title": "Browsing a stack of images in one figure", "statement": "For plot_image (and plot_real, plot_imag, plot_amplitude, plot_phase, plot_colorized) on a stack with any extra dimensions (none empty), and every history, in one figure, of replots of stacks of the same shape with other contents or plot functions, of up and down keys and of slider drags: nothing raises; the figure shows the image of the stack plotted last at the index the history leads to; every slider is on an axis with more than one entry and stands at that axis' index. 'down' is the next image in numpy's row-major order, 'up' the previous one, both with wraparound: each undoes the other, and every image is shown exactly once in a cycle. A drag sets one index, kept within its range. For plot_nanomap_with_images over any number of points, with one image or a stack of equal length each: after any history of keys over the map or over the image, clicks and slider drags nothing has raised, and the slider, the marked point and the displayed image of the stack agree and are those the history leads to. (Known limits: a figure reused for a shorter stack is an IndexError if the index stands beyond its end; reused for a stack of a single image, the keys bring back images of the old stack; reused for a stack with more long axes it is an IndexError and its slider no longer changes the image; stacks of different lengths in a nanomap are an IndexError, with the marked point and the slider apart.)", "quantifier": "all stack shapes and contents, all plot functions, all finite histories of replots, keys, clicks and slider drags", "why_tests_cant": "unbounded interaction histories and arbitrary numbers of axes", "anchors": ["src/cdtools/tools/plotting/plotting.py:plot_image", "src/cdtools/tools/plotting/plotting.py:plot_nanomap_with_images"]}
{"id": "C86", "title": "Pictures in real-space coordinates", "statement": "plot_image (and the functions built on it) with a real-space basis puts pixel (i, j) where the geometry says, in the requested unit. get_units_factor knows m, cm, mm, um (or $\\mu$m), nm, A and pm in any case, with the factor that turns metres into that unit. For every basis of two independent vectors, orthogonal or not, and every unit, the default view keeps all distances between pixels; rows of the image run along the x axis, and the row index grows along y. With an explicit view basis of two independent vectors the plotted (x, y) are the coordinates of the nearest point of the view plane, and of the place itself if the image lies in that plane. The limits of the axes hold exactly the picture, and an image with any other number of pixels drawn there fills the same place. Plotting again with the same geometry keeps the picture in place. plot_translations and plot_nanomap put every point at its position in the unit, mirrored at the origin unless the convention is 'probe' (in any case), with all distances kept; after any sequence of plot_translations calls the x axis points left exactly if some call since the last cleared figure asked for it. The image beside a nanomap has its distances right for an orthogonal basis. (Known limits: a figure reused with another basis or another number of pixels draws the new image where the first one was, its scale off by the quotient; a degenerate basis is a division by zero; the image beside a nanomap is wrong for every basis that is not orthogonal: its two diagonals come out equal; an unknown unit is an UnboundLocalError.)", "quantifier": "all bases, view bases, units, image sizes, translations and sequences of calls", "why_tests_cant": "a test sees one basis and one size; the distances have to be right for every basis, sheared ones included, and every pixel", "anchors": ["src/cdtools/tools/plotting/plotting.py:plot_image", "src/cdtools/tools/plotting/plotting.py:get_units_factor", "src/cdtools/tools/plotting/plotting.py:plot_translations", "src/cdtools/tools/plotting/plotting.py:plot_nanomap", "src/cdtools/tools/plotting/plotting.py:plot_nanomap_with_images"]}
{"id": "C87", "title": "Colours of complex pictures", "statement": "colorize (and with it plot_colorized), for every non-empty complex picture that is not zero everywhere, for both maps and every amplitude scaling that is not negative: the picture does not depend on the overall scale of the data; every channel lies between 0 and the scaled amplitude. The default map shows its table: a phase of 360 k / 255 - 100 degrees has the k-th entry from the end times the scaled amplitude, with linear interpolation between entries. In the hue map the brightest channel is the scaled amplitude and the darkest 15 % of it, and it loses nothing: for a faithful scaling two pixels, in one picture or two, have the same colour exactly if they are equal relative to their picture's largest modulus. Both maps are smooth in the phase, across the cut at -pi = pi too: turning a value by d radians changes no channel by more than d times the scaled amplitude. At the cut red is the strongest channel. The colour bar of plot_colorized shows, for each phase and amplitude it samples, the colour a pixel of any picture with that phase and relative modulus has, within half a row of its label. (Known limits: a picture that is zero everywhere is divided by zero and has no colours.)", "quantifier": "all picture sizes, all complex pictures, all amplitude scalings, all phases", "why_tests_cant": "continuity and injectivity over all complex values cannot be sampled", "anchors": ["src/cdtools/tools/plotting/plotting.py:colorize", "src/cdtools/tools/plotting/plotting.py:plot_colorized", "src/cdtools/tools/plotting/plotting.py:cm_data"]}
{"id": "C88", "title": "Patterns on pixels of finite size", "statement": "With simulate_finite_pixels=True, for every number of modes and every square wavefield (N x N): the wavefield has exactly one set of Fourier coefficients whose band-limited field passes through its samples, and the simulated pattern is the sum of the interference terms of those coefficients, a difference of d frequencies along an axis weighed by sinc((2 d + 1) / (2 N - 1)). What pixels of width 1 collect - the intensity of the band-limited field integrated over each pixel - is the same sum with the weights sinc(d / N), and that pattern conserves the power of the wavefields. The simulated pattern has sinc(1 / (2 N - 1))^2 of the power, a wave of one frequency fills all pixels alike, modes add incoherently, and incoherent_sum and quadratic_background go on from the modulus of the pattern as without finite pixels. (Known limits: the weights are not even in d and their middle is off by half a step, so the pattern always loses photons (one pixel is dark) and interference terms come out with a wrong weight; intensity returns complex numbers, and raises with oversampling or saturation.)", "quantifier": "all N, numbers of modes, wavefields, pixels, positions inside the detector plane", "why_tests_cant": "an integral over continuous pixels for all wavefields of all sizes", "anchors": ["src/cdtools/tools/measurements/measurements.py:intensity", "src/cdtools/tools/measurements/measurements.py:incoherent_sum", "src/cdtools/tools/measurements/measurements.py:quadratic_background"]}
{"id": "C89", "title": "Deconvolved cross-correlation", "statement": "calc_deconvolved_cross_correlation, for all images of one shape and all slices: the result depends only on the window (by default the middle, 2 (n / 8) entries from 3 (n / 8) on), and exists without nan exactly if neither window has a Fourier coefficient that is zero. Then every Fourier coefficient of the result has modulus 1 and the phase of the product of the first window's with the conjugate of the second's, and its energy is 1. A window that is the other one cyclically shifted by (p, q) gives a single 1 at (p, q); a window with itself, at (0, 0). Blurring both windows with one kernel changes nothing, scaling them by complex factors only multiplies by a phase, swapping them turns the result half a turn about pixel (0, 0) and conjugates it, and real images give real results. (Known limits: an image with a side under 8 pixels has an empty default slice and raises; a flat window gives nan everywhere.)", "quantifier": "all image shapes, images, slices with non-negative bounds, kernels, factors", "why_tests_cant": "all complex images of all sizes", "anchors": ["src/cdtools/tools/analysis/analysis.py:calc_deconvolved_cross_correlation"]}
{"id": "C90", "title": "Comparing simulated and measured patterns", "statement": "CDIModel.compare, in one window over a dataset of n > 0 patterns, after any history of keys, wheel turns, slider drags and further work on the model: nothing is raised; the slider and the window are at the same pattern, which is in range, starts at 0 and wraps round at both ends; and the three pictures are the simulated pattern, the measured pattern times the mask, and the difference (simulated minus measured) times the mask, as base-10 logarithms if logarithmic is set, for the model as it was when the window was last drawn (any key in the window redraws it; a drag to the pattern already shown does not). k presses of down show pattern k mod n. With any number of windows on any non-empty datasets nothing is raised either, and each window shows the pattern of its own dataset that it is at, as the model was at some time. A new window starts at pattern 0 with the slider at 0, whatever the older ones show, and leaves them alone. (Known limits: windows of one model share its slider, so a key pressed in an older window moves the latest one to the same pattern number; an empty dataset raises ZeroDivisionError.)", "quantifier": "all datasets, models, masks, numbers of windows and histories of events", "why_tests_cant": "all histories of keys, drags, windows and work on the model", "anchors": ["src/cdtools/models/base.py:compare"]}
{"id": "C91", "title": "Saved figures and the stored detector geometry", "statement": "save_figures(prefix, extension), for any list of open figures: a file named prefix + label + extension is written for each figure, holding the last figure of that label; every other file is left alone; with different labels every figure is saved. The label is the panel label, else the title of the first axes, else 'figure'. store_detector_geometry, after any history of stores in a fresh model: get_detector_geometry gives the latest basis, the latest distance and the latest corner given, rounded to the model's precision, and none of those never given; a dictionary without a basis raises KeyError. (Known limits: of figures with one label only the last is kept; after a second store without a distance or corner, those of the first come back.)", "quantifier": "all lists of figures, prefixes, extensions and prior files; all histories of stored geometries", "why_tests_cant": "all lists of figures and all histories of stores", "anchors": ["src/cdtools/models/base.py:save_figures", "src/cdtools/models/base.py:store_detector_geometry", "src/cdtools/models/base.py:get_detector_geometry"]}
{"id": "C92", "title": "Perusing a data set", "statement": "Ptycho2DDataset.inspect, for every data set with a pattern for each of its n > 0 positions and every history of keys, wheel turns, clicks and drags: nothing is raised; the colour of every point of the map is the sum of its own pattern over the unmasked pixels (however many positions there are, whatever chunks of 10 the code sums them in); the enlarged point is the slider's, keys wrap round; and the picture is that point's pattern, zero where masked, as the base-10 logarithm after adding log_offset unless logarithmic is off. plot_mean_pattern shows the logarithm of the sum of the patterns over the unmasked pixels plus log_offset, scaled so that its sum is the light per conjugate field of view, or, for colinear positions, of their mean. If there are not as many patterns as positions ValueError is raised, except when the positions fill whole chunks of 10 and there are more patterns (the rest is ignored) and when just one pattern is left for the last chunk. (Known limits: in that last case its sum is given to every position left, silently; an empty data set raises ValueError, or IndexError without the mean pattern.)", "quantifier": "all data sets, masks, offsets and histories of events", "why_tests_cant": "all numbers of positions and patterns, all pixel values, all histories of events", "anchors": ["src/cdtools/datasets/ptycho_2d_dataset.py:inspect", "src/cdtools/datasets/ptycho_2d_dataset.py:plot_mean_pattern"]}
{"id": "C93", "title": "Browsing the probes of every exposure", "statement": "FancyPtycho.plot_wavefront_variation, for a model with weight matrices of n > 0 exposures and m > 0 rows, probes with some light, right linear algebra, and any history of keys, wheel turns, clicks and drags: nothing is raised; the colour of each point is the light of that exposure relative to that of the basis probes; the enlarged point is the slider's exposure p. With mode 'amplitude' or 'phase' the picture is the amplitude or phase of mode k of min(m, pixels) modes that are orthogonal, strongest first, and carry the whole light of exposure p inside the probe support (same mutual coherence); keys over the picture go round the modes. With 'root_sum_intensity' it is the total intensity of exposure p's light, pixel by pixel. The mode is taken in any case. Without weights NotImplementedError is raised, with another number of positions than exposures ValueError, with an unknown mode AttributeError, with one factor per exposure it raises, too. MultislicePtycho's method, with weight matrices, differs only in the colours, which are the total light of each exposure. (Known limits: 'root_sum_intensity' takes no root, though its colour bar says so; the colours of the map leave out the probe support.)", "quantifier": "all numbers of exposures, modes and probes, all probes, supports, weights and histories of events", "why_tests_cant": "all weights, probes, supports and all histories of events", "anchors": ["src/cdtools/models/fancy_ptycho.py:plot_wavefront_variation", "src/cdtools/models/multislice_ptycho.py:plot_wavefront_variation"]}
{"id": "C94", "title": "Density matrices of the exposures", "statement": "MultislicePtycho.get_rhos and Multislice2DPtycho.get_rhos: with weight matrices the density matrix of every exposure is Hermitian and positive, its trace is the sum of the squared moduli of the weights, and taken between the basis probes it gives the mutual coherence function of that exposure's light; two exposures have equal density matrices exactly if they have the same light (mutual coherence) on every set of basis probes, whatever their numbers of modes. With one factor per exposure each is the identity, the density matrix of the basis probes as independent modes. (Known limits: with one factor per exposure the factor is left out, so that light is not described unless the factor has modulus 1.)", "quantifier": "all weights and basis probes, all numbers of exposures, modes, probes and pixels", "why_tests_cant": "all weights and probes", "anchors": ["src/cdtools/models/multislice_ptycho.py:get_rhos", "src/cdtools/models/multislice_2d_ptycho.py:get_rhos"]}
{"id": "C95", "title": "MultislicePtycho: only the mutual coherence matters; tidy_probes is invisible", "statement": "For every MultislicePtycho with any number of slices, with or without simulate_probe_translation, and every exposure: two sets of probe modes and weights that give the exposure the same mutual coherence function (within the probe support) give it the same simulated pattern, whatever the slices, interslice propagator, position, oversampling and detector. Hence with the same probes the pattern depends on the weight matrices only through get_rhos (C94), and tidy_probes (with weight matrices, whenever its new weights are numbers, or with one weight per exposure) changes no simulated pattern.", "quantifier": "all models, numbers of slices, weights, probes, objects, exposures, linear algebra libraries that are right on their inputs", "why_tests_cant": "continuous fields, all numbers of slices and all decompositions a library may return", "anchors": ["src/cdtools/models/multislice_ptycho.py:tidy_probes,interaction,measurement,get_rhos", "src/cdtools/tools/analysis/analysis.py:orthogonalize_probes"]}
{"id": "C96", "title": "Forward models with pixels of finite size", "statement": "For FancyPtycho and MultislicePtycho with simulate_finite_pixels=True, a square detector and every exposure of a model whose arrays fit together: the simulated pattern is that of C88 of the waves at the detector (C62 for FancyPtycho, without probe shifts; C66 for MultislicePtycho) - the sum of the interference terms of the Fourier coefficients whose band-limited fields pass through the waves' samples, weighed by the pixel mask - in modulus, averaged over the oversampling block, times the quantum efficiency (FancyPtycho), plus background, up to saturation. It depends on the probes and weights only through the mutual coherence function of the exposure inside the probe support (FancyPtycho with a single object plane; MultislicePtycho with any number of slices), so that tidy_probes changes no such pattern, with one weight per exposure, and with weight matrices whenever its new weights are numbers.", "quantifier": "all models with square detectors, weights, probes, objects, exposures, linear algebra libraries that are right on their inputs", "why_tests_cant": "continuous fields over all models and all decompositions a library may return", "anchors": ["src/cdtools/models/fancy_ptycho.py:measurement,tidy_probes", "src/cdtools/models/multislice_ptycho.py:measurement,tidy_probes", "src/cdtools/tools/measurements/measurements.py:quadratic_background"]}

# Formal model of cdtools in Rocq (Coq 8.16.1)

## Layout

* `rocq/theories/Model_*.v`: the model. Gallina functions that follow the Python function by
  function; every definition cites the file and lines it models and says where it simplifies.
  Exceptions are values (`res A := Ok a | Raise e`).
* `Spec_*.v` (and the definitions at the head of some `Properties_*.v`): small specifications in
  terms a user would use (pixels, energies, frequencies, exposures, files), independent of the
  model's helpers.
* `Base.v, FinSum.v, Fourier.v, Matrix.v`: finite sums, the discrete Fourier transform, complex
  matrices. `Proofs_*.v`: lemmas.
* `Properties_*.v`: the property theorems `Cnn_...`, each followed by `Print Assumptions`, and
  `Example`s that exhibit a concrete case meeting the hypotheses.
* `properties.jsonl`: the properties in English. Where the code does not do what its documentation
  says (or what one would expect), the property says so under "Known defect" and a theorem with
  suffix `_refuted` proves the failure on the model. Everything else in the statement is proved by
  the other theorems of that property. No theorem has the suffix `_partial`: no claim is left
  half proved.
* `scripts/`: manifest generation, mutation testing (`mutate.py`), `assumptions.py`.
* `seeded/LOG.jsonl`: the wrong programs tried and which theorems rejected them.

## Trusted base

* Coq 8.16.1's kernel (no kernel check is switched off, no plugin beyond the standard
  distribution's and those of the installed libraries).
* The axioms `Print Assumptions` lists; `ASSUMPTIONS.md` gives them theorem by theorem. They are
  all from the standard library: `ClassicalDedekindReals.sig_forall_dec`,
  `ClassicalDedekindReals.sig_not_dec` and
  `FunctionalExtensionality.functional_extensionality_dep` (they come with the real numbers),
  `Classical_Prop.classic` (through Coquelicot / Flocq and decidability of real statements), and
  `IndefiniteDescription.constructive_indefinite_description` in exactly three theorems that
  exhibit a library (C42_library_exists, C44_gfrc_last_bin_refuted, C80_scipy_exists). coqchk also
  lists the opaque fields of the standard library's own functor instances
  (`RbaseSymbolsImpl`, ssreflect's `Under_rel`). No axiom, Parameter, Admitted, functor or module
  type is added here; `Variable`s occur only inside sections.
* The reading of the Python code recorded in the comments of the model files, and the following
  readings of the libraries it calls:
  - numbers: floating point is modelled by exact real and complex numbers; NaN is modelled where
    the code tests for it or where it makes a claim fail (`option R`, `None` = NaN). Rounding is
    modelled only where a dtype conversion is the point (binary32 in CXI files, by Flocq);
    otherwise rounding error, overflow and devices are outside the model;
  - torch.fft with norm='ortho' is the unitary DFT; fftshift / ifftshift / roll are index maps;
    Python round and torch.round are round-half-even; slices clip, negative indices wrap;
  - autograd is not modelled: a gradient is whatever the per-image gradient function says, summed
    by `backward()` as documented;
  - threads: the GIL-atomic steps listed in Model_Recon.v; queue, Event, Thread.join by their
    documentation;
  - linear algebra (SVD, QR, eigh, svdvals) by contract, dateutil's parser, scipy's minimiser and
    random samplers as arbitrary inputs;
  - h5py: groups, datasets, attributes, soft links, creation fails on existing names, opening
    with 'w' gives an empty file.

## What is modelled

* reconstructors/base.py, adam.py, sgd.py, lbfgs.py: all of it except the text of progress
  reports and the mathematics inside torch's optimizer steps (an arbitrary step function).
* models/base.py: construction of the bookkeeping fields, forward's pairing of the three model
  functions, save/load of results, checkpoints, save_on_exit, skip_computation, report's effect
  on training_history, inspect with its panels and figures,
  compare, save_figures, store_detector_geometry and get_detector_geometry; Ptycho2DDataset.inspect and plot_mean_pattern (datasets).
* models/simple_ptycho.py, fancy_ptycho.py, bragg_2d_ptycho.py, multislice_ptycho.py, rpi.py:
  constructors as regards the stored parameters and buffers, save_results, from_results_dict,
  the geometry, weights and basis parts of from_dataset, propagators, sim_to_dataset,
  corrected_translations, center_probes, tidy_probes, get_probe_intensities.
* tools/plotting: the browsing state of plot_image and plot_nanomap_with_images, the real-space coordinates of pictures, scan patterns and maps, and colorize with its colour table and colour bar;
* from_dataset of SimplePtycho, FancyPtycho, MultislicePtycho, Bragg2DPtycho and RPI (without plotting and obj_view_crop);
  RPI.from_calibration and init_obj.
* models/multislice_2d_ptycho.py: the propagator of the constructor, the geometry call of from_dataset, tidy_probes.
* The forward models (interaction, forward_propagator, measurement) of SimplePtycho, FancyPtycho,
  MultislicePtycho, Multislice2DPtycho, Bragg2DPtycho and RPI for one exposure, simulate_finite_pixels=False; of FancyPtycho and MultislicePtycho also with
  simulate_finite_pixels=True on square detectors (C96).
* datasets: construction, access, split, pad, downsample, selections, to_cxi / from_cxi.
* tools/data: the CXI accessors, entry information, HDF5 dictionaries.
* tools/propagators: far/near field and inverses, angular spectrum propagators (plain and
  generalized), the high-NA far field and its maps. tools/image_processing: hann_window, shifts, find_pixel_shift,
  find_subpixel_shift, find_shift, centroid, centroid_sq, center, convolve_1d, fourier_upsample. tools/initializers: exit_wave_geometry, calc_object_setup,
  generate_subdominant_modes, gaussian, gaussian_probe (unpolarized), SHARP_style_probe and its
  near-field variant, STEM_style_probe, the operators of RPI_spectral_init. tools/interactions:
  translations, ptycho_2D_round / linear / sinc, RPI_interaction. tools/measurements. tools/losses.
  tools/analysis: product_svd, orthogonalize_probes, standardize, ramps and exponents, FRC,
  fidelity, RMS errors, entropy, mode power fractions, illumination maps,
  standardize_reconstruction_set and _pair, synthesize_reconstructions, calc_consistency_prtf,
  calc_spectral_info (scipy's hull is an unknown function), calc_deconvolved_cross_correlation.

## What is not modelled

* tools/plotting except what C85 to C87 cover (index bookkeeping, sliders, keys, units, coordinates, colours), and the plotting methods of the models except compare, save_figures and plot_wavefront_variation (C90, C91, C93, C94;
  the colour limits and colour bars of compare are not modelled); text of log messages;
  matplotlib itself: its Slider is taken to clip dragged values and to call back on changes, its figure to keep attributes.
* Autograd, devices, dtypes other than where stated, floating-point rounding other than where
  stated, memory and performance.
* Convergence of the reconstructions.
* The random content of datasets/random_selection.py (its table is a parameter of C20).
* tools: the s-matrix interaction (unused, not exported); the finite-pixel branch of the measurements for
  wavefields that are not square (C38 models its shape, C88 and C96 the values of square ones).

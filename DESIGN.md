# Formal model of cdtools in Rocq (Coq 8.16.1)

## Layout

* `rocq/theories/Model_*.v`: the model. Gallina functions that follow the Python function by
  function; every definition cites the file and lines it models and says where it simplifies.
  Exceptions are values (`res A := Ok a | Raise e`).
* `Spec_*.v` (and the definitions at the head of some `Properties_*.v`): small specifications in
  terms a user would use (pixels, energies, frequencies, exposures, files), independent of the
  model's helpers.
* `Base.v, FinSum.v, Fourier.v, Matrix.v`: finite sums, the discrete Fourier transform, complex
  matrices. `Proofs_*.v`: lemmas.
* `Properties_*.v`: the property theorems `Cnn_...`, each followed by `Print Assumptions`, and
  `Example`s that exhibit a concrete case meeting the hypotheses.
* `properties.jsonl`: the properties in English. Where the code does not do what its documentation
  says (or what one would expect), the property says so under "Known defect" and a theorem with
  suffix `_refuted` proves the failure on the model. Everything else in the statement is proved by
  the other theorems of that property. No theorem has the suffix `_partial`: no claim is left
  half proved.
* `scripts/`: manifest generation, mutation testing (`mutate.py`), `assumptions.py`.
* `seeded/LOG.jsonl`: the wrong programs tried and which theorems rejected them.

## Trusted base

* Coq 8.16.1's kernel (no kernel check is switched off, no plugin beyond the standard
  distribution's and those of the installed libraries).
* The axioms `Print Assumptions` lists; `ASSUMPTIONS.md` gives them theorem by theorem. They are
  all from the standard library: `ClassicalDedekindReals.sig_forall_dec`,
  `ClassicalDedekindReals.sig_not_dec` and
  `FunctionalExtensionality.functional_extensionality_dep` (they come with the real numbers),
  `Classical_Prop.classic` (through Coquelicot / Flocq and decidability of real statements), and
  `IndefiniteDescription.constructive_indefinite_description` in exactly three theorems that
  exhibit a library (C42_library_exists, C44_gfrc_last_bin_refuted, C80_scipy_exists). coqchk also
  lists the opaque fields of the standard library's own functor instances
  (`RbaseSymbolsImpl`, ssreflect's `Under_rel`). No axiom, Parameter, Admitted, functor or module
  type is added here; `Variable`s occur only inside sections.
* The reading of the Python code recorded in the comments of the model files, and the following
  readings of the libraries it calls:
  - numbers: floating point is modelled by exact real and complex numbers; NaN is modelled where
    the code tests for it or where it makes a claim fail (`option R`, `None` = NaN). Rounding is
    modelled only where a dtype conversion is the point (binary32 in CXI files, by Flocq);
    otherwise rounding error, overflow and devices are outside the model;
  - torch.fft with norm='ortho' is the unitary DFT; fftshift / ifftshift / roll are index maps;
    Python round and torch.round are round-half-even; slices clip, negative indices wrap;
  - autograd is not modelled: a gradient is whatever the per-image gradient function says, summed
    by `backward()` as documented;
  - threads: the GIL-atomic steps listed in Model_Recon.v; queue, Event, Thread.join by their
    documentation;
  - linear algebra (SVD, QR, eigh, svdvals) by contract, dateutil's parser, scipy's minimiser and
    random samplers as arbitrary inputs;
  - h5py: groups, datasets, attributes, soft links, creation fails on existing names, opening
    with 'w' gives an empty file.

## What is modelled

* reconstructors/base.py, adam.py, sgd.py, lbfgs.py: all of it except the text of progress
  reports and the mathematics inside torch's optimizer steps (an arbitrary step function).
* models/base.py: construction of the bookkeeping fields, forward's pairing of the three model
  functions, save/load of results, checkpoints, save_on_exit, skip_computation, report's effect
  on training_history, inspect with its panels and figures,
  compare, save_figures, store_detector_geometry and get_detector_geometry; Ptycho2DDataset.inspect and plot_mean_pattern (datasets).
* models/simple_ptycho.py, fancy_ptycho.py, bragg_2d_ptycho.py, multislice_ptycho.py, rpi.py:
  constructors as regards the stored parameters and buffers, save_results, from_results_dict,
  the geometry, weights and basis parts of from_dataset, propagators, sim_to_dataset,
  corrected_translations, center_probes, tidy_probes, get_probe_intensities.
* tools/plotting: the browsing state of plot_image and plot_nanomap_with_images, the real-space coordinates of pictures, scan patterns and maps, and colorize with its colour table and colour bar;
* from_dataset of SimplePtycho, FancyPtycho, MultislicePtycho, Bragg2DPtycho and RPI (without plotting and obj_view_crop);
  RPI.from_calibration and init_obj.
* models/multislice_2d_ptycho.py: the propagator of the constructor, the geometry call of from_dataset, tidy_probes.
* The forward models (interaction, forward_propagator, measurement) of SimplePtycho, FancyPtycho,
  MultislicePtycho, Multislice2DPtycho, Bragg2DPtycho and RPI for one exposure, simulate_finite_pixels=False; of FancyPtycho and MultislicePtycho also with
  simulate_finite_pixels=True on square detectors (C96).
* datasets: construction, access, split, pad, downsample, selections, to_cxi / from_cxi.
* tools/data: the CXI accessors, entry information, HDF5 dictionaries.
* tools/propagators: far/near field and inverses, angular spectrum propagators (plain and
  generalized), the high-NA far field and its maps. tools/image_processing: hann_window, shifts, find_pixel_shift,
  find_subpixel_shift, find_shift, centroid, centroid_sq, center, convolve_1d, fourier_upsample. tools/initializers: exit_wave_geometry, calc_object_setup,
  generate_subdominant_modes, gaussian, gaussian_probe (unpolarized), SHARP_style_probe and its
  near-field variant, STEM_style_probe, the operators of RPI_spectral_init. tools/interactions:
  translations, ptycho_2D_round / linear / sinc, RPI_interaction. tools/measurements. tools/losses.
  tools/analysis: product_svd, orthogonalize_probes, standardize, ramps and exponents, FRC,
  fidelity, RMS errors, entropy, mode power fractions, illumination maps,
  standardize_reconstruction_set and _pair, synthesize_reconstructions, calc_consistency_prtf,
  calc_spectral_info (scipy's hull is an unknown function), calc_deconvolved_cross_correlation.

## What is not modelled

* tools/plotting except what C85 to C87 cover (index bookkeeping, sliders, keys, units, coordinates, colours), and the plotting methods of the models except compare, save_figures and plot_wavefront_variation (C90, C91, C93, C94;
  the colour limits and colour bars of compare are not modelled); text of log messages;
  matplotlib itself: its Slider is taken to clip dragged values and to call back on changes, its figure to keep attributes.
* Autograd, devices, dtypes other than where stated, floating-point rounding other than where
  stated, memory and performance.
* Convergence of the reconstructions.
* The random content of datasets/random_selection.py (its table is a parameter of C20).
* tools: the s-matrix interaction (unused, not exported); the finite-pixel branch of the measurements for
  wavefields that are not square (C38 models its shape, C88 and C96 the values of square ones).


## Per property: what is modelled and how it is proved

* **C01 calculation_width does not change the optimisation** - Model_Recon.v. Closure of run_epoch as list chunking over an abstract per-image loss and gradient; induction on chunks; then a bisimulation of whole epochs. (5 theorems, proved)
* **C02 epoch loss is independent of the batching** - Model_Recon.v, Model_Loss.v. Normalizers as folds over batches, run inside the epoch model; sums re-indexed over permutations. (7 theorems, proved)
* **C03 loss_history / epoch / training_history bookkeeping** - Model_Recon.v. Run_epoch as a state transformer with exceptions; invariant by induction over histories of generator operations and thread schedules. (3 theorems, proved)
* **C04 optimize yields exactly one loss per iteration, threaded or not** - Model_Recon.v. Generator as a resume function; threaded version as small-step interleaving; simulation proof. (3 theorems, proved)
* **C05 errors and interrupts in the worker thread surface in the caller** - Model_Recon.v. Small-step interleaving of worker / consumer / stop event; invariants over all schedules; divergence shown for BaseException. (8 theorems, proved)
* **C06 skip_computation skips computation** - Model_Recon.v. Both branches of optimize, skipping state. (2 theorems, proved)
* **C07 default batch sizes** - Model_Optim.v. Setup_dataloader with the default arguments of every entry point. (4 theorems, proved)
* **C08 order of the minibatches** - Model_Optim.v. The arguments each wrapper passes on, sampler as a permutation oracle. (4 theorems, proved)
* **C09 learning-rate factors persist and apply per parameter** - Model_Optim.v. State machine over adjust_optimizer / scheduler steps; refinement to "last supplied dictionary". (4 theorems, proved)
* **C10 each epoch visits each selected diffraction pattern exactly once** - Model_Recon.v, Model_Optim.v. Subset, sampler and batching as list functions; Permutation / concat theorem. (4 theorems, proved)
* **C11 checkpointed jobs compose to the uninterrupted run** - Model_Ckpt.v. Job runner over a checkpoint store; induction over job ids and stages. (5 theorems, proved)
* **C12 optimizer state in checkpoints** - Model_Ckpt.v. Current_optimizer attribute tracked per object. (2 theorems, proved)
* **C13 save_on_exit / save_on_exception never lose results** - Model_Ckpt.v. Context managers as functions of body outcome and save routine. (5 theorems, proved)
* **C14 results dictionaries survive the HDF5 round trip** - Model_H5.v. Inductive trees and an HDF5 group model; structural induction. (9 theorems, proved)
* **C15 CXI mask encoding** - Model_Cxi.v. 32-bit masks in Z. (2 theorems, proved)
* **C16 CXI accessor round trips** - Model_Cxi.v. HDF5 file with groups, datasets, attributes and soft links; invariant "extends"; binary32 rounding by Flocq. (13 theorems, proved)
* **C17 Ptycho2DDataset.to_cxi / from_cxi round trip** - Model_Cxi.v. Composition of the accessors as in to_cxi / from_cxi. (2 theorems, proved)
* **C18 entry metadata is returned as written** - Model_Cxi.v. Date parser and ISO formatter as parameters of the theorems. (3 theorems, proved)
* **C19 datasets can be saved by path** - Model_Cxi.v. Bare file versus created CXI file. (4 theorems, proved)
* **C20 split partitions the dataset** - Model_Dataset.v. Lists and boolean masks; the selection table is a parameter. (3 theorems, proved)
* **C21 selecting exposures keeps patterns and positions aligned** - Model_Dataset.v. Lists and boolean masks, state and exception together. (6 theorems, proved)
* **C22 pad keeps the measured data** - Model_Dataset.v. Images as functions with shapes. (5 theorems, proved)
* **C23 downsample bins counts and masks consistently** - Model_Dataset.v. Block sums; composition by sum re-indexing. (6 theorems, proved)
* **C24 NaN pixels are masked out** - Model_Dataset.v, Model_Cxi.v. Option R pixels (None = NaN). (3 theorems, proved)
* **C25 far-field propagation is unitary and invertible** - Model_Prop.v. DFT over C, orthogonality of roots of unity, fftshift permutations (Fourier.v). (4 theorems, proved)
* **C26 near-field propagation and its inverse** - Model_Prop.v. DFT inversion and Parseval. (5 theorems, proved)
* **C27 angular spectrum propagators** - Model_Prop.v. Complex square roots and exponentials; plane geometry in R^3. (12 theorems, proved)
* **C28 fourier_upsample keeps the image** - Model_Image.v. DFT and zero-padding index arithmetic. (5 theorems, proved)
* **C29 sub-pixel shifting** - Model_Image.v. DFT shift theorem. (5 theorems, proved)
* **C30 find_pixel_shift finds the circular shift** - Model_Image.v. Argmax of the phase correlation; wrap arithmetic. (3 theorems, proved)
* **C31 convolve_1d is circular convolution** - Model_Image.v. DFT convolution theorem. (2 theorems, proved)
* **C32 hann_window** - Model_Image.v. Real trigonometry. (3 theorems, proved)
* **C33 pixel <-> real-space translations round trip** - Model_Geom.v. 3-vectors, 2x2 inverse. (3 theorems, proved)
* **C34 project_translations_to_sample geometry** - Model_Geom.v. 3x3 solve. (2 theorems, proved)
* **C35 exit wave geometry matches the detector** - Model_Geom.v. Pinv of a full-rank 3x2 matrix by its explicit formula. (2 theorems, proved)
* **C36 the object array contains every probe position** - Model_Interact.v. Min / max / ceil / floor / round-half-even over lists of reals. (4 theorems, proved)
* **C37 interaction models extract the right object window** - Model_Interact.v. Index functions; DFT shift theorem for sinc. (9 theorems, proved)
* **C38 simulated intensities are physical** - Model_Meas.v. Sums of squared moduli. (10 theorems, proved)
* **C39 losses are well-behaved** - Model_Loss.v. Sums over masked lists; x ln x inequality. (7 theorems, proved)
* **C40 normalised Poisson loss** - Model_Loss.v. Real analysis (ln). (4 theorems, proved)
* **C41 generate_subdominant_modes** - Model_Interact.v. Enumeration of exponent pairs; DFT. (4 theorems, proved)
* **C42 orthogonalize_probes and tidy_probes preserve the mutual coherence** - Model_Analysis.v. SVD, QR, singular values as a library given by its contract (the contract is shown satisfiable for every input by an existence proof of the SVD). (12 theorems, proved)
* **C43 standardisations leave the exit wave unchanged** - Model_Analysis.v. Complex algebra; scipy minimiser and center_of_mass as inputs. (8 theorems, proved)
* **C44 similarity metrics are bounded and phase invariant** - Model_Analysis.v. Cauchy-Schwarz, trace norm variational principle, Uhlmann. (32 theorems, proved)
* **C45 von Neumann entropy is consistent** - Model_Analysis.v. Eigenvalues by contract; Gibbs inequality; spectral uniqueness. (7 theorems, proved)
* **C46 mode power fractions** - Model_Analysis.v. On top of C42. (3 theorems, proved)
* **C47 RPI interaction upsampling** - Model_Interact.v. DFT index arithmetic. (3 theorems, proved)
* **C48 RPI spectral initialisation uses a true adjoint** - Model_Interact.v. Inner products of finite sums. (4 theorems, proved)
* **C49 dataset access** - Model_Dataset.v. List indexing. (2 theorems, proved)
* **C50 inspect draws the requested plots** - Model_Inspect.v. State machine over calls, figures and callback ids. (10 theorems, proved)
* **C51 forward and backward propagators undo each other** - Model_Models.v. Propagators per class on top of C25-C27. (6 theorems, proved)
* **C52 Bragg geometry construction** - Model_Models.v. Bragg constructor branches, vector geometry. (8 theorems, proved)
* **C53 per-shot probe intensities** - Model_Analysis.v. Einsum as finite sums. (2 theorems, proved)
* **C54 illumination map** - Model_Analysis.v. Accumulating slices as sums over shots. (2 theorems, proved)
* **C55 A whole model can be rebuilt from its saved results** - Model_Reload.v. Constructors, training and save/load as functions on slots (parameters and buffers); symbolic execution. (11 theorems, proved)
* **C56 near-field models use the equivalent parallel-beam geometry** - Model_Models.v. Geometry of the near-field constructor. (3 theorems, proved)
* **C57 initial weights reproduce the recorded intensities** - Model_Models.v. Weights at construction. (4 theorems, proved)
* **C58 Fourier-cropping the probe keeps its field of view** - Model_Models.v. Basis arithmetic of from_dataset. (3 theorems, proved)
* **C59 multislice propagation uses the object's pixel pitch** - Model_Models.v. Spacing arguments of the multislice propagator. (3 theorems, proved)
* **C60 simulated datasets** - Model_Models.v. Chunk loop and orientation of sim_to_dataset. (3 theorems, proved)
* **C61 corrected translations are the simulated positions** - Model_Models.v. Pixel / translation conversions of C33 with offsets. (4 theorems, proved)
* **C62 FancyPtycho simulates the physics it documents** - Model_Forward.v. Whole forward model (position, mode mixing, Fourier padding, sinc interaction, propagation, detector) against one formula built on trigonometric interpolation; linear-operator lemmas. (7 theorems, proved)
* **C63 Symmetries of the FancyPtycho forward model** - Model_Forward.v. Linearity of every stage; one gauge theorem with its corollaries; isometric mode mixing. (6 theorems, proved)
* **C64 Photon budget of the FancyPtycho forward model** - Model_Forward.v. Parseval through every stage of the forward model. (4 theorems, proved)
* **C65 Probe Fourier shifts** - Model_Forward.v. The phase mask as a ramp; modulation theorem of the centred transform. (4 theorems, proved)
* **C66 MultislicePtycho forward model** - Model_Forward.v. Fold over the slices; Parseval through every slice; composition of Fourier shifts. (6 theorems, proved)
* **C67 SimplePtycho forward model** - Model_Forward.v. Rounding bound; reduction to the sinc interaction at whole pixels. (2 theorems, proved)
* **C68 RPI forward model** - Model_Forward.v. All pairs of modes; isometries over the probe index; refutation of the stored basis. (4 theorems, proved)
* **C69 Bragg2DPtycho forward model** - Model_Forward.v. Argument of a unit complex number in (-pi, 0]; C27 plane waves; uniqueness of the sample point; Parseval. (9 theorems, proved)
* **C70 Only the mutual coherence matters; tidy_probes is invisible** - Model_Forward.v, Model_Analysis.v. The exit-to-detector map is linear, so pixel powers are sesquilinear in the coherence function (pixel basis, sum exchange); C42 gives equal coherence; a 1 x 1 counterexample for several planes. (4 theorems, proved)
* **C71 center moves a stack rigidly to the middle** - Model_Center.v. Shifts add up and are isometries (C29, polarisation); integer shifts are rolls; re-indexing of the moments; induction on the iterations. (10 theorems, proved)
* **C72 find_shift and find_subpixel_shift find circular shifts exactly** - Model_Shift.v. The normalised correlation of rolled images is a lone pixel (C30); the Dirichlet kernel is strictly peaked there; argmax of a product of peaks. (5 theorems, proved)
* **C73 A new model holds exactly what it was given** - Model_Reload.v. The constructors as tables of named slots; each row by computation; probe scaling by field arithmetic in C. (14 theorems, proved)
* **C74 The probe initializers reproduce the data they are made from** - Model_Init.v. The initializers on exact arrays; C25 (far field inverse), C26/C27 for the propagation distance, a Gaussian-beam identity in C. (10 theorems, proved)
* **C75 from_dataset builds a model that already explains the average of the data** - Model_Init.v. From_dataset as a function of dataset, options and random numbers; composed with the forward models of C62, C64, C65, C67. (13 theorems, proved)
* **C76 MultislicePtycho.from_dataset builds a model that already explains the average of the data** - Model_InitSlices.v. From_dataset of the multislice model as a function of dataset, options and random numbers; composed with the forward model of C66. (10 theorems, proved)
* **C77 The high-NA far field maps every detector pixel to the direction it sees** - Model_HighNA.v. The maps of the high-NA propagator, bilinear sampling and its use by the Bragg model; places and factors of every pixel derived from the geometry. (11 theorems, proved)
* **C78 Bragg2DPtycho.from_dataset builds a model that starts from the data** - Model_InitBragg.v. From_dataset of the Bragg model as a function of dataset, options and random numbers; composed with the geometry of C52 and the forward models of C69 and C77. (10 theorems, proved)
* **C79 RPI.from_dataset and RPI.from_calibration build a model that starts from the probe** - Model_InitRPI.v. From_dataset, from_calibration and init_obj of the RPI model as functions of dataset or calibration, probe, options and random numbers; composed with the forward models of C62 and C67. (24 theorems, proved)
* **C80 standardize_reconstruction_set and _pair compare reconstructions without changing them** - Model_Sets.v. Standardize_reconstruction_set and standardize_reconstruction_pair as functions of the saved results; scipy.optimize.minimize is an unknown function; the pair also yields the second dictionary as the caller finds it afterwards. (20 theorems, proved)
* **C81 synthesize_reconstructions averages aligned standard forms** - Model_Synth.v. Synthesize_reconstructions on lists of probe arrays and objects, with the loop that aligns and adds, the cut to the common size, and its errors. (5 theorems, proved)
* **C82 calc_consistency_prtf is the mean ratio of ring powers** - Model_Synth.v. Calc_consistency_prtf with its histogram over the whole frequency range. (7 theorems, proved)
* **C83 calc_spectral_info scales the summed pattern to one detector field of view** - Model_Spectral.v. Calc_spectral_info; the area of the convex hull is an unknown function of the positions. (6 theorems, proved)
* **C84 Multislice2DPtycho crosses the planes in order and propagates only between them** - Model_Multi2D.v. Interaction, propagation and measurement of the two-dimensional multislice model as a loop over the planes; composed with the forward model of C62 and the propagator of C27; the argument binding of from_dataset; tidy_probes over an unknown linear algebra library. (13 theorems, proved)
* **C85 Browsing a stack of images in one figure** - Model_Browse.v. The figure as a record of the attributes the code keeps (index, picture, sliders, connected closure); simulation of an ideal browser by induction over the history; the odometer is addition of one in mixed radix. (9 theorems, proved)
* **C86 Pictures in real-space coordinates** - Model_Frame.v. The view basis, the least squares (an unknown function under its defining contract) and the affine transform as written; the distances by bilinearity of the dot product, the limits by convexity. (14 theorems, proved)
* **C87 Colours of complex pictures** - Model_Color.v. Exact reals, the colour table copied in full; both maps are affine on pieces that fit together (the table is closed), which gives the Lipschitz bound by induction over the pieces; the inverse of hsv by the six sextants. (9 theorems, proved)
* **C88 Patterns on pixels of finite size** - Model_Finite.v. Both upsamplings, the padding and the mask as written; the value of one wave by geometric sums, the rest by linearity and orthogonality; the integral over a pixel by Coquelicot. (9 theorems, proved)
* **C89 Deconvolved cross-correlation** - Model_Deconv.v. As written; the correlation theorem, the shift theorem and Parseval on the window; nan by a test for zero coefficients. (10 theorems, proved)
* **C90 Comparing simulated and measured patterns** - Model_Compare.v. One window: induction over the events with an invariant (slider = window = tracked number, pictures = drawn then); many windows: an invariant over all of them. (6 theorems, proved)
* **C91 Saved figures and the stored detector geometry** - Model_Compare.v. Induction over the figures and over the stores; names by injectivity of append. (5 theorems, proved)
* **C92 Perusing a data set** - Model_Peruse.v. The loop over chunks by strong induction on the positions left, down to an exact description of when lengths fit; the browser by C85, the mean pattern by C83. (6 theorems, proved)
* **C93 Browsing the probes of every exposure** - Model_Wavefront.v. The modes by C42, the colours by C53, the browser by C85. (6 theorems, proved)
* **C94 Density matrices of the exposures** - Model_Wavefront.v. Swapping sums; completeness with basis probes that are single pixels. (5 theorems, proved)
* **C95 MultislicePtycho: only the mutual coherence matters; tidy_probes is invisible** - Model_Forward.v. The power behind a linear system depends on the mutual coherence only (C70); passing the slices is linear, by induction on their number. (4 theorems, proved)
* **C96 Forward models with pixels of finite size** - Model_ForwardFinite.v. The waves by C62 and C66, the pixels by C88; upsampling is linear, so coherence decides (C70). (8 theorems, proved)

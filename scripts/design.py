import json
D=[json.loads(l) for l in open('/verif/properties.jsonl')]
M={c['property']:c for c in json.load(open('/verif/MANIFEST.json'))['claims']}
plan={
'C01':('Model_Recon','closure of run_epoch as list chunking over an abstract per-image loss and gradient; induction on chunks; then a bisimulation of whole epochs.'),
'C02':('Model_Recon, Model_Loss','normalizers as folds over batches, run inside the epoch model; sums re-indexed over permutations.'),
'C03':('Model_Recon','run_epoch as a state transformer with exceptions; invariant by induction over histories of generator operations and thread schedules.'),
'C04':('Model_Recon','generator as a resume function; threaded version as small-step interleaving; simulation proof.'),
'C05':('Model_Recon','small-step interleaving of worker / consumer / stop event; invariants over all schedules; divergence shown for BaseException.'),
'C06':('Model_Recon','both branches of optimize, skipping state.'),
'C07':('Model_Optim','setup_dataloader with the default arguments of every entry point.'),
'C08':('Model_Optim','the arguments each wrapper passes on, sampler as a permutation oracle.'),
'C09':('Model_Optim','state machine over adjust_optimizer / scheduler steps; refinement to "last supplied dictionary".'),
'C10':('Model_Recon, Model_Optim','subset, sampler and batching as list functions; Permutation / concat theorem.'),
'C11':('Model_Ckpt','job runner over a checkpoint store; induction over job ids and stages.'),
'C12':('Model_Ckpt','current_optimizer attribute tracked per object.'),
'C13':('Model_Ckpt','context managers as functions of body outcome and save routine.'),
'C14':('Model_H5','inductive trees and an HDF5 group model; structural induction.'),
'C15':('Model_Cxi','32-bit masks in Z.'),
'C16':('Model_Cxi','HDF5 file with groups, datasets, attributes and soft links; invariant "extends"; binary32 rounding by Flocq.'),
'C17':('Model_Cxi','composition of the accessors as in to_cxi / from_cxi.'),
'C18':('Model_Cxi','date parser and ISO formatter as parameters of the theorems.'),
'C19':('Model_Cxi','bare file versus created CXI file.'),
'C20':('Model_Dataset','lists and boolean masks; the selection table is a parameter.'),
'C21':('Model_Dataset','lists and boolean masks, state and exception together.'),
'C22':('Model_Dataset','images as functions with shapes.'),
'C23':('Model_Dataset','block sums; composition by sum re-indexing.'),
'C24':('Model_Dataset, Model_Cxi','option R pixels (None = NaN).'),
'C25':('Model_Prop','DFT over C, orthogonality of roots of unity, fftshift permutations (Fourier.v).'),
'C26':('Model_Prop','DFT inversion and Parseval.'),
'C27':('Model_Prop','complex square roots and exponentials; plane geometry in R^3.'),
'C28':('Model_Image','DFT and zero-padding index arithmetic.'),
'C29':('Model_Image','DFT shift theorem.'),
'C30':('Model_Image','argmax of the phase correlation; wrap arithmetic.'),
'C31':('Model_Image','DFT convolution theorem.'),
'C32':('Model_Image','real trigonometry.'),
'C33':('Model_Geom','3-vectors, 2x2 inverse.'),
'C34':('Model_Geom','3x3 solve.'),
'C35':('Model_Geom','pinv of a full-rank 3x2 matrix by its explicit formula.'),
'C36':('Model_Interact','min / max / ceil / floor / round-half-even over lists of reals.'),
'C37':('Model_Interact','index functions; DFT shift theorem for sinc.'),
'C38':('Model_Meas','sums of squared moduli.'),
'C39':('Model_Loss','sums over masked lists; x ln x inequality.'),
'C40':('Model_Loss','real analysis (ln).'),
'C41':('Model_Interact','enumeration of exponent pairs; DFT.'),
'C42':('Model_Analysis','SVD, QR, singular values as a library given by its contract (the contract is shown satisfiable for every input by an existence proof of the SVD).'),
'C43':('Model_Analysis','complex algebra; scipy minimiser and center_of_mass as inputs.'),
'C44':('Model_Analysis','Cauchy-Schwarz, trace norm variational principle, Uhlmann.'),
'C45':('Model_Analysis','eigenvalues by contract; Gibbs inequality; spectral uniqueness.'),
'C46':('Model_Analysis','on top of C42.'),
'C47':('Model_Interact','DFT index arithmetic.'),
'C48':('Model_Interact','inner products of finite sums.'),
'C49':('Model_Dataset','list indexing.'),
'C50':('Model_Inspect','state machine over calls, figures and callback ids.'),
'C51':('Model_Models','propagators per class on top of C25-C27.'),
'C52':('Model_Models','Bragg constructor branches, vector geometry.'),
'C53':('Model_Analysis','einsum as finite sums.'),
'C54':('Model_Analysis','accumulating slices as sums over shots.'),
'C55':('Model_Reload','constructors, training and save/load as functions on slots (parameters and buffers); symbolic execution.'),
'C56':('Model_Models','geometry of the near-field constructor.'),
'C57':('Model_Models','weights at construction.'),
'C58':('Model_Models','basis arithmetic of from_dataset.'),
'C59':('Model_Models','spacing arguments of the multislice propagator.'),
'C62':('Model_Forward','whole forward model (position, mode mixing, Fourier padding, sinc interaction, propagation, detector) against one formula built on trigonometric interpolation; linear-operator lemmas.'),
'C63':('Model_Forward','linearity of every stage; one gauge theorem with its corollaries; isometric mode mixing.'),
'C64':('Model_Forward','Parseval through every stage of the forward model.'),
'C65':('Model_Forward','the phase mask as a ramp; modulation theorem of the centred transform.'),
'C66':('Model_Forward','fold over the slices; Parseval through every slice; composition of Fourier shifts.'),
'C67':('Model_Forward','rounding bound; reduction to the sinc interaction at whole pixels.'),
'C68':('Model_Forward','all pairs of modes; isometries over the probe index; refutation of the stored basis.'),
'C69':('Model_Forward','argument of a unit complex number in (-pi, 0]; C27 plane waves; uniqueness of the sample point; Parseval.'),
'C70':('Model_Forward, Model_Analysis','the exit-to-detector map is linear, so pixel powers are sesquilinear in the coherence function (pixel basis, sum exchange); C42 gives equal coherence; a 1 x 1 counterexample for several planes.'),
'C71':('Model_Center','shifts add up and are isometries (C29, polarisation); integer shifts are rolls; re-indexing of the moments; induction on the iterations.'),
'C72':('Model_Shift','the normalised correlation of rolled images is a lone pixel (C30); the Dirichlet kernel is strictly peaked there; argmax of a product of peaks.'),
'C73':('Model_Reload','the constructors as tables of named slots; each row by computation; probe scaling by field arithmetic in C.'),
'C74':('Model_Init','the initializers on exact arrays; C25 (far field inverse), C26/C27 for the propagation distance, a Gaussian-beam identity in C.'),
'C79':('Model_InitRPI','from_dataset, from_calibration and init_obj of the RPI model as functions of dataset or calibration, probe, options and random numbers; composed with the forward models of C62 and C67.'),
'C80':('Model_Sets','standardize_reconstruction_set and standardize_reconstruction_pair as functions of the saved results; scipy.optimize.minimize is an unknown function; the pair also yields the second dictionary as the caller finds it afterwards.'),
'C81':('Model_Synth','synthesize_reconstructions on lists of probe arrays and objects, with the loop that aligns and adds, the cut to the common size, and its errors.'),
'C82':('Model_Synth','calc_consistency_prtf with its histogram over the whole frequency range.'),
'C85':('Model_Browse','the figure as a record of the attributes the code keeps (index, picture, sliders, connected closure); simulation of an ideal browser by induction over the history; the odometer is addition of one in mixed radix.'),
'C86':('Model_Frame','the view basis, the least squares (an unknown function under its defining contract) and the affine transform as written; the distances by bilinearity of the dot product, the limits by convexity.'),
'C87':('Model_Color','exact reals, the colour table copied in full; both maps are affine on pieces that fit together (the table is closed), which gives the Lipschitz bound by induction over the pieces; the inverse of hsv by the six sextants.'),
'C88':('Model_Finite','both upsamplings, the padding and the mask as written; the value of one wave by geometric sums, the rest by linearity and orthogonality; the integral over a pixel by Coquelicot.'),
'C89':('Model_Deconv','as written; the correlation theorem, the shift theorem and Parseval on the window; nan by a test for zero coefficients.'),
'C90':('Model_Compare','one window: induction over the events with an invariant (slider = window = tracked number, pictures = drawn then); many windows: an invariant over all of them.'),
'C91':('Model_Compare','induction over the figures and over the stores; names by injectivity of append.'),
'C92':('Model_Peruse','the loop over chunks by strong induction on the positions left, down to an exact description of when lengths fit; the browser by C85, the mean pattern by C83.'),
'C93':('Model_Wavefront','the modes by C42, the colours by C53, the browser by C85.'),
'C95':('Model_Forward','the power behind a linear system depends on the mutual coherence only (C70); passing the slices is linear, by induction on their number.'),
'C96':('Model_ForwardFinite','the waves by C62 and C66, the pixels by C88; upsampling is linear, so coherence decides (C70).'),
'C94':('Model_Wavefront','swapping sums; completeness with basis probes that are single pixels.'),
'C84':('Model_Multi2D','interaction, propagation and measurement of the two-dimensional multislice model as a loop over the planes; composed with the forward model of C62 and the propagator of C27; the argument binding of from_dataset; tidy_probes over an unknown linear algebra library.'),
'C83':('Model_Spectral','calc_spectral_info; the area of the convex hull is an unknown function of the positions.'),
'C78':('Model_InitBragg','from_dataset of the Bragg model as a function of dataset, options and random numbers; composed with the geometry of C52 and the forward models of C69 and C77.'),
'C77':('Model_HighNA','the maps of the high-NA propagator, bilinear sampling and its use by the Bragg model; places and factors of every pixel derived from the geometry.'),
'C76':('Model_InitSlices','from_dataset of the multislice model as a function of dataset, options and random numbers; composed with the forward model of C66.'),
'C75':('Model_Init','from_dataset as a function of dataset, options and random numbers; composed with the forward models of C62, C64, C65, C67.'),
'C60':('Model_Models','chunk loop and orientation of sim_to_dataset.'),
'C61':('Model_Models','pixel / translation conversions of C33 with offsets.'),
}
txt=open('/verif/scripts/design_head.md').read()
out=[txt,'\n## Per property: what is modelled and how it is proved\n']
for d in D:
    m=plan.get(d['id'],('',''))
    n=len(M[d['id']]['theorems'])
    out.append("* **%s %s** - %s. %s (%d theorems, %s)"%(d['id'],d['title'],', '.join(x+'.v' for x in m[0].split(', ')),m[1][0].upper()+m[1][1:] if m[1] else '',n,M[d['id']]['status']))
open('/verif/DESIGN.md','w').write('\n'.join(out)+'\n')

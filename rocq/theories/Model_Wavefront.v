(** models/fancy_ptycho.py: plot_wavefront_variation (921-952); models/multislice_ptycho.py: plot_wavefront_variation
    (729-776) and get_rhos (623-632; the same in multislice_2d_ptycho.py 507-516).
    Simplified: exact reals and complex numbers; n is the number of points that corrected_translations returns (C61), the
    positions themselves, units, titles and the colour map are left out; matplotlib's scatter is taken to raise ValueError
    if the number of values is not the number of points.  The browser is that of Model_Browse. *)
From Verif Require Import Base FinSum Matrix Model_Prop Model_Meas Model_Analysis Model_Browse.
From Verif Require Model_Frame.
From Coquelicot Require Import Complex.
Local Open Scope C_scope.

(** self.weights: none, a factor for each exposure, or an m by l matrix for each exposure *)
Inductive weighting := NoWeights | Factors (N : nat) (w : nat -> R) | Matrices (N m : nat) (w : nat -> mat).

Section Wavefront.
Variable L : linalg.
Variables l H W : nat.               (* basis probes, and their size *)
Variable probe : nat -> img.
Variable support : rimg.

(** 923-926: the modes of exposure idx: how many, and what they are *)
Definition exposure_modes (m : nat) (w : nat -> mat) (idx : nat) : nat * (nat -> img) :=
  let basis_prs := fun q i j => probe q i j * RtoC (support i j) in
  let prs := weighted l (w idx) basis_prs in
  fst (orthogonalize_probes L m H W prs None).
(** 928-934; any other mode gives None *)
Definition get_probes (mode : string) (m : nat) (w : nat -> mat) (idx : nat) : option (item rimg) :=
  let (k, ortho) := exposure_modes m w idx in
  let mode := Model_Frame.lower mode in
  if String.eqb mode "amplitude" then Some (Many (map (fun a i j => Cmod (ortho a i j)) (seq 0 k)))
  else if String.eqb mode "root_sum_intensity" then Some (One (fun i j => rsum k (fun a => Cmod (ortho a i j) ^ 2)%R))
  else if String.eqb mode "phase" then Some (Many (map (fun a i j => angle (ortho a i j)) (seq 0 k)))
  else None.
(** get_probe_intensities (874-918) for all exposures *)
Definition all_intensities (ws : weighting) : res (list R) :=
  match ws with
  | NoWeights => Raise NotImplementedError
  | Factors N w => Ok (map (fun s => get_probe_intensities_1d w s) (seq 0 N))
  | Matrices N m w => Ok (map (fun s => get_probe_intensities m l H W w probe s) (seq 0 N))
  end.
(** 936-952, then some events in the browser: the values of the map, the browser and the outcomes *)
Definition plot_with (get_values : res (list R)) (n : nat) (mode : string) (ws : weighting) (es : list nevent)
  : res (list R * (view rimg * list (res unit))) :=
  rbind get_values (fun values =>
  if Nat.eqb n 0 then Raise IndexError else
  if negb (Nat.eqb (List.length values) n) then Raise ValueError else
  match ws with
  | Matrices _ m w =>
      match get_probes mode m w 0 with
      | None => Raise AttributeError                     (* None has no shape *)
      | Some _ =>
          let image i := match get_probes mode m w i with Some x => x | None => Many nil end in
          rbind (snd (Model_Browse.open image)) (fun _ => Ok (values, nrun n image es (fst (Model_Browse.open image))))
      end
  | _ => Raise IndexError                                (* weights[idx, :, :, None, None] *)
  end).
Definition plot_wavefront_variation (n : nat) (mode : string) (ws : weighting) (es : list nevent)
  : res (list R * (view rimg * list (res unit))) := plot_with (all_intensities ws) n mode ws es.
(** multislice_ptycho.py 744-759: of weight matrices only (others are not modelled) *)
Definition total_intensities (N m : nat) (w : nat -> mat) : list R :=
  let pm := probe_matrix H W probe in
  map (fun s => rsum m (fun a => Re (csum l (fun q => csum l (fun p => w s a p * pm p q) * Cconj (w s a q))))) (seq 0 N).
Definition plot_wavefront_variation_multislice (n : nat) (mode : string) (N m : nat) (w : nat -> mat) (es : list nevent)
  : res (list R * (view rimg * list (res unit))) := plot_with (Ok (total_intensities N m w)) n mode (Matrices N m w) es.
(** get_rhos: the density matrix of exposure s *)
Definition get_rhos (ws : weighting) (s : nat) : option mat :=
  match ws with
  | NoWeights => None
  | Factors _ _ => Some (fun a b => if Nat.eqb a b then RtoC 1 else RtoC 0)
  | Matrices _ m w => Some (fun a b => csum m (fun k => w s k a * Cconj (w s k b)))
  end.
End Wavefront.

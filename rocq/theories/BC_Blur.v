(** GaussianBlur and DeadWireCount of BlurredClusteringAlg. *)
From Coq Require Import QArith Qcanon.
From Verif Require Import Base QcUtil Solver_Model Solver_Proofs BC_Model BC_Spec BC_Cells BC_Image.
From Coq Require Import Lqa.
Local Open Scope nat_scope.

(** the blurring parameters: fBlurWire, fBlurTick, fMaxTickWidthBlur (BlurredClusteringAlg.h 142-146), the
    {blur_wire, blur_tick} of FindBlurringParameters (.cxx 673-702, least-squares slope: taken as given), the tick scale
    sqrt(RMS^2 + sigma_tick^2) / sigma_tick of a hit before clamping (lines 444-445, taken as given) and the kernel
    fAllKernels[sigma_wire][sigma_tick * tick_scale] for each clamped tick scale (MakeKernels, 711-746: the values, which
    involve exp, are arbitrary here). *)
Record blurcfg := {
  no_blur : bool;                       (* fSigmaWire == 0 and fSigmaTick == 0 *)
  blurWire : Z; blurTick : Z; maxTickWidth : Z;
  blur_wire : Z; blur_tick : Z;
  raw_scale : bhit -> Z;
  kernel : Z -> list Qc
}.

Section Blur.
Variables (bc : blurcfg) (dead : list bool) (hm : hitmap) (im : image).

(** fKernelWidth, fKernelHeight: constructor lines 53-54 *)
Definition kernelWidth : Z := (2 * blurWire bc + 1)%Z.
Definition kernelHeight : Z := (2 * blurTick bc * maxTickWidth bc + 1)%Z.

(** DeadWireCount, BlurredClusteringAlg.cxx 650-671, wire numbers counted from fLowerWire;
    fUpperWire - fLowerWire = nbinsx *)
Definition dead_wire_count (x : nat) (width : Z) : outcome (Z * Z) :=
  let lower := Z.quot width 2 in
  let upper := Z.quot (width + 1) 2 in
  foreach (zspan (Z.max (Z.of_nat x - lower) 0) (Z.min (Z.of_nat x + upper) (Z.of_nat (length im)) - 1))
    (fun (c : Z * Z) w =>
       do d <- idx_z dead w;
       Ok (if (d : bool) then
             if (w <? Z.of_nat x)%Z then (fst c + 1, snd c)%Z
             else if (Z.of_nat x <? w)%Z then (fst c, snd c + 1)%Z else c
           else c)) (0, 0)%Z.

(** tick_scale = max(min(tick_scale, fMaxTickWidthBlur), 1), line 446 *)
Definition tick_scale (h : bhit) : Z := Z.max (Z.min (raw_scale bc h) (maxTickWidth bc)) 1.

(** one (blurx, blury) cell, BlurredClusteringAlg.cxx 464-472; the state is (copy, dead_wires_passed) *)
Definition smear_cell (nbinsy : nat) (k : list Qc) (x y : nat) (v : Qc) (blurx : Z) (s : image * Z) (blury : Z)
  : outcome (image * Z) :=
  let (copy, passed) := s in
  let tx := (Z.of_nat x + blurx)%Z in
  let ty := (Z.of_nat y + blury)%Z in
  do p1 <- (if (blurx <? 0)%Z then do d <- idx_z dead tx; Ok (if (d : bool) then (passed - 1)%Z else passed) else Ok passed);
  do w <- idx_z k (kernelWidth * (Z.quot kernelHeight 2 + blury) + (Z.quot kernelWidth 2 + (blurx - p1)))%Z;
  do copy' <- (if ((0 <=? tx) && (tx <? Z.of_nat (length im)) && (0 <=? ty) && (ty <? Z.of_nat nbinsy))%Z then
                 do row <- idx_z copy tx; do c <- idx_z row ty;
                 do row' <- set_idx_z row ty (c + w * v)%Qc; set_idx_z copy tx row'
               else Ok copy);
  do p2 <- (if (0 <? blurx)%Z then do d <- idx_z dead tx; Ok (if (d : bool) then (p1 + 1)%Z else p1) else Ok p1);
  Ok (copy', p2).

(** one column of the blurring region, lines 460-473 *)
Definition smear_col (nbinsy : nat) (k : list Qc) (x y : nat) (v : Qc) (ts : Z) (s : image * Z) (blurx : Z) : outcome (image * Z) :=
  if (Z.of_nat x + blurx <? 0)%Z then Ok s else
  let height := (2 * blur_tick bc + 1)%Z in
  foreach (zspan (Z.quot (- height) 2 * ts) ((Z.quot (height + 1) 2 - 1) * ts))%Z
          (smear_cell nbinsy k x y v blurx) s.

(** one cell of the image, lines 441-475 *)
Definition blur_cell (nbinsy : nat) (copy : image) (xy : nat * nat) : outcome image :=
  let (x, y) := xy in
  do row <- idx im x; do v <- idx row y;
  if qc_eqb v (Q2Qc 0) then Ok copy else
  do hrow <- idx hm x; do h <- idx hrow y;
  match h with
  | None => Undef                                   (* dereferences a null art::Ptr *)
  | Some h =>
    let ts := tick_scale h in
    let k := kernel bc ts in
    let width := (2 * blur_wire bc + 1)%Z in
    do dw <- dead_wire_count x width;
    let (lo, up) := dw in
    do s <- foreach (zspan (- (Z.quot width 2 + lo)) (Z.quot (width + 1) 2 + up - 1))%Z
                    (smear_col nbinsy k x y v ts) (copy, lo);
    Ok (fst s)
  end.

(** GaussianBlur, BlurredClusteringAlg.cxx 421-484 *)
Definition gaussian_blur : outcome image :=
  if no_blur bc then Ok im else
  do row0 <- at_ im 0;
  let nbinsy := length row0 in
  let nbinsx := length im in
  foreach (flat_map (fun x => map (pair x) (seq 0 nbinsy)) (seq 0 nbinsx)) (blur_cell nbinsy)
          (repeat (repeat (Q2Qc 0) nbinsy) nbinsx).
End Blur.

(** What BlurredClustering::produce does with the hits of one plane, BlurredClustering_module.cc 169-192, without merging
    (fMergeClusters false); [dead] gives the dead-wire list for the array of wires found (lines 176-184 of the algorithm). *)
Definition plane_clusters (cf : config) (bc : blurcfg) (dead : bounds -> list bool) (srt : list (Qc * nat) -> list (Qc * nat))
  (maxWires readout : Z) (hits : list bhit) : outcome (list (list bhit)) :=
  if length hits <? minSize cf then Ok [] else
  do r <- hits_to_image maxWires readout hits;
  let '(im, hm, b) := r in
  do blurred <- gaussian_blur bc (dead b) hm im;
  do fc <- find_clusters cf hm blurred srt [];
  bins_to_clusters cf hm im (fst fc) [].

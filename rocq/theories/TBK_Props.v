(** Theorem C39 *)
From Coq Require Import QArith Qcanon Lqa.
From Verif Require Import Base Util QcUtil Solver_Model Solver_Proofs TBK_Model TBK_Spec.
Local Open Scope nat_scope.

Section P.
Context {P V H F I S C : Type}.
Notation op := (op P V H F I S). Notation opts := (opts H I S). Notation keeper := (keeper P V H F I S).

Lemma nonneg_spec c : nonneg (Some c) = true <-> (0 <= c)%Qc.
Proof. cbn. rewrite negb_true_iff. apply qc_lt_false. Qed.
Lemma step_ok (k : keeper) (o : op) :
  k_hits (step k o) = k_hits k ++ hits [o] /\ k_pos (step k o) = k_pos k ++ points [o] /\ k_mom (step k o) = k_mom k ++ vectors [o] /\ k_flags (step k o) = k_flags k ++ flags [o] /\
  length (k_chi2v (step k o)) = length (k_chi2v k) + length (chi2s [o]) /\
  k_chi2 (step k o) = match o with SetChi2 x => x | _ => match k_chi2 k with Some t => Some (t + qsum (fun x => x) (chi2s [o]))%Qc | None => None end end /\
  k_hasmom (step k o) = k_hasmom k /\ k_id (step k o) = k_id k /\ k_pdg (step k o) = k_pdg k /\ k_npar (step k o) = k_npar k /\
  o_infos (k_opts (step k o)) = match o_infos (k_opts k) with Some l => Some (l ++ infos [o]) | None => None end /\ o_sps (k_opts (step k o)) = o_sps (k_opts k).
Proof.
  destruct o as [p v h f c e|x].
  - assert (B : forall (k : keeper), length (k_chi2v (add_point k p v h f c)) = length (k_chi2v k) + length (chi2s [Add p v h f c e]) /\
      k_chi2 (add_point k p v h f c) = match k_chi2 k with Some t => Some (t + qsum (fun x => x) (chi2s [Add p v h f c e]))%Qc | None => None end).
    { intros k0. unfold add_point, chi2s. cbn [flat_map app]. destruct c as [c|].
      - destruct (Qclt_le_dec c 0) as [L|L].
        + assert (nonneg (Some c) = false) as ->. { destruct (nonneg (Some c)) eqn:E; [|reflexivity]. apply nonneg_spec in E. exfalso. qclra. } cbn. split; [lia|]. destruct (k_chi2 k0); [|reflexivity]. f_equal. ring.
        + assert (nonneg (Some c) = true) as -> by (apply nonneg_spec, L). cbn. rewrite app_length. cbn. split; [reflexivity|]. destruct (k_chi2 k0); [|reflexivity]. cbn. f_equal. ring.
      - cbn. split; [lia|]. destruct (k_chi2 k0); [|reflexivity]. f_equal. ring. }
    destruct (B k) as [B1 B2].
    destruct e as [[i s]|]; cbn [step add_point_opt fst snd k_hits k_pos k_mom k_flags k_chi2v k_chi2 k_hasmom k_id k_pdg k_npar k_opts].
    + split; [reflexivity|]. split; [reflexivity|]. split; [reflexivity|]. split; [reflexivity|]. split; [exact B1|]. split; [exact B2|]. cbn. unfold o_add. cbn.
      destruct (o_infos (k_opts k)) as [l|] eqn:Eo, i as [i|]; cbn; rewrite ?Eo, ?app_nil_r; repeat split; reflexivity.
    + split; [reflexivity|]. split; [reflexivity|]. split; [reflexivity|]. split; [reflexivity|]. split; [exact B1|]. split; [exact B2|]. cbn. destruct (o_infos (k_opts k)); rewrite ?app_nil_r; repeat split; reflexivity.
  - cbn. rewrite !app_nil_r. destruct (o_infos (k_opts k)); rewrite ?app_nil_r; repeat split; lia.
Qed.
Lemma flat_split {A B} (f : A -> list B) o l : flat_map f (o :: l) = flat_map f [o] ++ flat_map f l.
Proof. cbn. rewrite app_nil_r. reflexivity. Qed.
Lemma run_ok (ops : list op) : forall k : keeper,
  k_hits (run k ops) = k_hits k ++ hits ops /\ k_pos (run k ops) = k_pos k ++ points ops /\ k_mom (run k ops) = k_mom k ++ vectors ops /\ k_flags (run k ops) = k_flags k ++ flags ops /\
  length (k_chi2v (run k ops)) = length (k_chi2v k) + length (chi2s ops) /\
  (forallb (fun o => negb (sets_chi2 o)) ops = true -> k_chi2 (run k ops) = match k_chi2 k with Some t => Some (t + qsum (fun x => x) (chi2s ops))%Qc | None => None end) /\
  k_hasmom (run k ops) = k_hasmom k /\ k_id (run k ops) = k_id k /\ k_pdg (run k ops) = k_pdg k /\ k_npar (run k ops) = k_npar k /\
  o_infos (k_opts (run k ops)) = match o_infos (k_opts k) with Some l => Some (l ++ infos ops) | None => None end /\ o_sps (k_opts (run k ops)) = o_sps (k_opts k).
Proof.
  induction ops as [|o ops IH]; intros k.
  - cbn. rewrite !app_nil_r. destruct (o_infos (k_opts k)), (k_chi2 k); rewrite ?app_nil_r; repeat split; try lia; intros _; f_equal; ring.
  - cbn [run fold_left]. fold (run (step k o) ops). destruct (IH (step k o)) as (A1 & A2 & A3 & A4 & A5 & A6 & A7 & A8 & A9 & A10 & A11 & A12). destruct (step_ok k o) as (B1 & B2 & B3 & B4 & B5 & B6 & B7 & B8 & B9 & B10 & B11 & B12).
    unfold hits, points, vectors, flags, infos, chi2s in *. rewrite !(flat_split _ o ops).
    rewrite A1, A2, A3, A4, A5, A7, A8, A9, A10, A11, A12, B1, B2, B3, B4, B5, B7, B8, B9, B10, B11, B12, <- !app_assoc, app_length.
    repeat split; try lia; [|destruct (o_infos (k_opts k)); [rewrite <- app_assoc|]; reflexivity].
    intros Hs. cbn [forallb] in Hs. apply andb_true_iff in Hs. destruct Hs as [H1 H2]. rewrite (A6 H2), B6. destruct o; [|discriminate]. destruct (k_chi2 k); [|reflexivity]. rewrite qsum_app. f_equal. ring.
Qed.

Lemma len_pv (ops : list op) : length (points ops) = length (vectors ops).
Proof. induction ops as [|[] l IH]; cbn in *; auto. Qed.
Lemma len_pf (ops : list op) : length (points ops) = length (flags ops).
Proof. induction ops as [|[] l IH]; cbn in *; auto. Qed.
Lemma len_ph (ops : list op) : length (points ops) = length (hits ops).
Proof. induction ops as [|[] l IH]; cbn in *; auto. Qed.

(** C39: the finalized track has what the addPoint calls were given, in order, and so do the output hits, whatever the hit vector held before; chi2 is the
    sum of the arguments that are >= 0 unless set, and ndof their number minus the number of fitted parameters *)
Theorem c39_track (old : list H) (o : opts) id pdg hm np ops (c1 c2 : C) : let k := run (start (P := P) (V := V) (F := F) old o id pdg hm np) ops in let t := fst (finalize k c1 c2) in
  t_pos t = points ops /\ t_mom t = vectors ops /\ t_flags t = flags ops /\ k_hits k = hits ops /\
  length (t_pos t) = length (t_mom t) /\ length (t_pos t) = length (t_flags t) /\ length (t_pos t) = length (k_hits k) /\
  t_ndof t = (Z.of_nat (length (chi2s ops)) - np)%Z /\ (forallb (fun o => negb (sets_chi2 o)) ops = true -> t_chi2 t = Some (qsum (fun x => x) (chi2s ops))) /\
  t_hasmom t = hm /\ t_id t = id /\ t_pdg t = pdg /\ t_cov t = (c1, c2).
Proof.
  intros k t. destruct (run_ok ops (start (P := P) (V := V) (F := F) old o id pdg hm np)) as (A1 & A2 & A3 & A4 & A5 & A6 & A7 & A8 & A9 & A10 & _). fold k in A1, A2, A3, A4, A5, A6, A7, A8, A9, A10. cbn in A1, A2, A3, A4, A5, A6, A7, A8, A9, A10.
  unfold t. cbn. rewrite A1, A2, A3, A4, A5, A7, A8, A9, A10. repeat split; auto using len_pv, len_pf, len_ph.
  intros Hs. rewrite (A6 Hs). f_equal. ring.
Qed.
(** after setTotChi2 it is the value set plus the later arguments *)
Theorem c39_set_chi2 (old : list H) (o : opts) id pdg hm np ops x ops' (c1 c2 : C) : forallb (fun o => negb (sets_chi2 o)) ops' = true ->
  t_chi2 (fst (finalize (run (start (P := P) (V := V) (F := F) old o id pdg hm np) (ops ++ SetChi2 x :: ops')) c1 c2)) = match x with Some t => Some (t + qsum (fun x => x) (chi2s ops'))%Qc | None => None end.
Proof.
  intros Hs. cbn. unfold run. rewrite fold_left_app. cbn [fold_left]. destruct (run_ok ops' (step (fold_left step ops (start (P := P) (V := V) (F := F) old o id pdg hm np)) (SetChi2 x))) as (_ & _ & _ & _ & _ & A6 & _). unfold run in A6. rewrite (A6 Hs). reflexivity.
Qed.
(** the optional outputs: if fit infos were asked for, exactly those given, in order, from an empty list; space points given to the
    book keeper are not stored *)
Theorem c39_optionals (old : list H) (o : opts) id pdg hm np ops : let k := run (start (P := P) (V := V) (F := F) old o id pdg hm np) ops in
  o_infos (k_opts k) = match o_infos o with Some _ => Some (infos ops) | None => None end /\ o_sps (k_opts k) = match o_sps o with Some _ => Some [] | None => None end.
Proof.
  intros k. destruct (run_ok ops (start (P := P) (V := V) (F := F) old o id pdg hm np)) as (_ & _ & _ & _ & _ & _ & _ & _ & _ & _ & A & B). fold k in A, B. cbn in A, B. rewrite A, B. destruct (o_infos o), (o_sps o); auto.
Qed.
(** with the fit infos asked for and one in every addPoint call, they correspond one to one to the hits *)
Theorem c39_infos_parallel (old : list H) (o : opts) id pdg hm np ops l0 : o_infos o = Some l0 -> Forall (fun o => match o with Add _ _ _ _ _ e => exists i s, e = Some (mkOpe (Some i) s) | _ => True end) ops ->
  let k := run (start (P := P) (V := V) (F := F) old o id pdg hm np) ops in exists l, o_take_infos (k_opts k) = Ok (l, mkOpts None (o_sps (k_opts k))) /\ length l = length (k_hits k).
Proof.
  intros Ho Ha k. destruct (c39_optionals old o id pdg hm np ops) as [A _]. fold k in A. rewrite Ho in A. exists (infos ops). unfold o_take_infos. rewrite A. split; [reflexivity|].
  destruct (run_ok ops (start (P := P) (V := V) (F := F) old o id pdg hm np)) as (A1 & _). fold k in A1. cbn in A1. rewrite A1. clear -Ha. induction Ha as [|[p v h f c e|x] l Hx _ IH]; cbn; auto. destruct Hx as (i & s & ->). cbn. f_equal. exact IH.
Qed.
End P.
Print Assumptions c39_track. Print Assumptions c39_set_chi2. Print Assumptions c39_optionals. Print Assumptions c39_infos_parallel.

(** an element passed twice gives its fit info once (it is moved out) *)
Theorem c39_element_used_once : forall (o : opts nat nat nat) (e : ope nat nat) l i, o_infos o = Some l -> e_info e = Some i -> let r := o_add o e in o_infos (fst (o_add (fst r) (snd r))) = Some (l ++ [i]).
Proof. intros o e l i Ho He. unfold o_add. rewrite Ho, He. reflexivity. Qed.
Definition ex_ops : list (op nat nat nat nat nat nat) := [Add 1 2 3 4 (Some 1%Qc) (Some (mkOpe (Some 7) (Some 8))); Add 5 6 7 8 (Some (- (1))%Qc) None; Add 9 10 11 12 None None; Add 13 14 15 16 (Some 0%Qc) (Some (mkOpe (Some 9) None))].
Example c39_nonvacuous : let k := run (start [99] (mkOpts (Some [1; 2]) (Some [])) 5 13 true 4) ex_ops in
  k_hits k = [3; 7; 11; 15] /\ t_ndof (fst (finalize k tt tt)) = (-2)%Z /\ option_map this (t_chi2 (fst (finalize k tt tt))) = Some (1 # 1) /\ o_infos (k_opts k) = Some [7; 9].
Proof. repeat split. Qed.

(** C146-C148: reversal of the hits, the products, the pitch. *)
From Coq Require Import QArith Qcanon Lqa.
From Verif Require Import Base QcUtil Solver_Model Solver_Proofs GNO_Model GNO_Spec GNO_Proofs GNO_Props GNO_Out GNO_Calo GNO_Res.
Import GNO_Model GNO_Spec.
Local Open Scope nat_scope.

Lemma filter_map_S (g : nat -> bool) l : filter g (map S l) = map S (filter (fun i => g (S i)) l).
Proof. induction l as [|a l IH]; [reflexivity|]. cbn [map filter]. rewrite IH. destruct (g (S a)); reflexivity. Qed.
Lemma sel_map {A B} (F : A -> B) (f : A -> bool) d (l : list A) :
  map (fun i => F (nth i l d)) (filter (fun i => match nth_error l i with Some x => f x | None => false end) (seq 0 (length l))) = map F (filter f l).
Proof.
  induction l as [|a l IH]; [reflexivity|]. cbn [length seq]. rewrite <- seq_shift. cbn [filter nth_error]. rewrite filter_map_S. cbn [nth_error].
  destruct (f a); cbn [map nth]; rewrite map_map; cbn [nth]; rewrite IH; reflexivity.
Qed.
Lemma filter_rev {A} (f : A -> bool) l : filter f (rev l) = rev (filter f l).
Proof. induction l as [|a l IH]; [reflexivity|]. cbn [rev filter]. rewrite filter_app, IH. cbn [filter]. destruct (f a); cbn [rev]; [reflexivity|apply app_nil_r]. Qed.
Definition sel (t : track) (p : nat) (y : hit * Z) : bool := ((h_plane (fst y) =? p) && valid t (snd y))%bool.

(** the object of a track and a plane when charge is taken per hit *)
Lemma object_per_hit e ts cs asn i x p c : per_hit e -> produce e ts = Ok (cs, asn) -> nth_error ts i = Some x -> p < e_np e -> nth_error cs (i * e_np e + p) = Some c ->
  let t := n_track x in let t0 := t0_of e x in let ys := filter (sel t p) (n_hits x) in
  (length ys <= 1 -> bogus e p c) /\
  (1 < length ys -> c_xyz c = map (fun y => p_loc e [y] t (0%nat, [])) ys /\ c_tp c = map (fun y => p_key [y] (0%nat, [])) ys /\ c_dedx c = map (fun y => p_de e [y] t t0 (0%nat, [])) ys /\
     c_dqdx c = map (fun y => p_dq e [y] t t0 (0%nat, [])) ys /\ c_pitch c = map (fun y => p_pitch e [y] t (0%nat, [])) ys /\ c_ef c = map (fun y => p_ef e [y] t (0%nat, [])) ys /\
     c_phi c = map (fun y => p_phi e [y] t (0%nat, [])) ys /\ c_ke c = qsum (fun y => p_de e [y] t t0 (0%nat, []) * p_pitch e [y] t (0%nat, []))%Qc ys).
Proof.
  intros PH H N Hp Nc t t0 ys. destruct (object_at e ts cs asn i x p H N Hp) as (ret & os & c' & Ho & No & Nc' & B & C). rewrite Nc in Nc'. injection Nc' as <-.
  destruct (organize_plane _ _ _ _ _ _ Ho No) as (_ & Hos & _). specialize (Hos PH).
  assert (M : forall (B : Type) (G : hits -> org -> B), (forall hs j, G hs (j, []) = G [nth j hs hd0] (0%nat, [])) -> map (G (n_hits x)) os = map (fun y => G [y] (0%nat, [])) ys).
  { intros BB G HG. rewrite Hos, map_map. rewrite (map_ext _ (fun j => (fun y => G [y] (0%nat, [])) (nth j (n_hits x) hd0))) by (intros j; apply HG). apply (sel_map (fun y => G [y] (0%nat, [])) (sel t p) hd0 (n_hits x)). }
  assert (Ln : length os = length ys). { rewrite <- (map_length (p_key (n_hits x)) os). rewrite (M nat p_key) by reflexivity. apply map_length. }
  split; [intros L; apply B; lia|]. intros L. destruct (C ltac:(lia)) as (r & _ & ->). cbn [c_ke c_dedx c_dqdx c_res c_dead c_range c_pitch c_xyz c_tp c_plane c_ef c_phi]. fold t t0.
  split; [exact (M vec (fun hs => p_loc e hs t) (fun _ _ => eq_refl))|]. split; [exact (M nat p_key (fun _ _ => eq_refl))|]. split; [exact (M Qc (fun hs => p_de e hs t t0) (fun _ _ => eq_refl))|].
  split; [exact (M Qc (fun hs => p_dq e hs t t0) (fun _ _ => eq_refl))|]. split; [exact (M Qc (fun hs => p_pitch e hs t) (fun _ _ => eq_refl))|]. split; [exact (M Qc (fun hs => p_ef e hs t) (fun _ _ => eq_refl))|].
  split; [exact (M Qc (fun hs => p_phi e hs t) (fun _ _ => eq_refl))|].
  rewrite <- (qsum_map (fun z => z) (fun o => p_de e (n_hits x) t t0 o * p_pitch e (n_hits x) t o)%Qc os). rewrite (M Qc (fun hs o => p_de e hs t t0 o * p_pitch e hs t o)%Qc (fun _ _ => eq_refl)). apply qsum_map.
Qed.

(** the norm of the opposite vector *)
Definition even (n : vec -> Qc) : Prop := forall v, n (V (- vx v) (- vy v) (- vz v))%Qc = n v.
Lemma dist_sym e a b : even (e_norm e) -> dist e a b = dist e b a.
Proof. intros E. unfold dist. rewrite <- E. cbn [vx vy vz]. f_equal. f_equal; ring. Qed.
Definition poly (n : vec -> Qc) (l : list vec) : Qc := match l with [] => 0%Qc | v :: r => path n v r end.
Lemma poly_snoc n l w : l <> [] -> poly n (l ++ [w]) = (poly n l + n (V (vx w - vx (last l w)) (vy w - vy (last l w)) (vz w - vz (last l w))))%Qc.
Proof.
  destruct l as [|v l]; intros D; [contradiction|]. cbn [app poly]. clear D. revert v. induction l as [|u l IH]; intros v; [cbn; ring|]. cbn [app path]. rewrite IH.
  change (last (v :: u :: l) w) with (last (u :: l) w). ring.
Qed.
Lemma poly_rev e l : even (e_norm e) -> poly (e_norm e) (rev l) = poly (e_norm e) l.
Proof.
  intros E. induction l as [|v l IH]; [reflexivity|]. cbn [rev]. destruct l as [|u l]; [reflexivity|]. rewrite poly_snoc.
  - rewrite IH. cbn [poly path]. assert (X : last (rev (u :: l)) v = u) by (cbn [rev]; apply last_last). rewrite X. change (e_norm e (V (vx v - vx u) (vy v - vy u) (vz v - vz u))%Qc) with (dist e v u). change (e_norm e (V (vx u - vx v) (vy u - vy v) (vz u - vz v))%Qc) with (dist e u v). rewrite (dist_sym e v u E). ring.
  - intros X. apply (f_equal (@length _)) in X. rewrite rev_length in X. discriminate X.
Qed.
Lemma at0_rev l k : k < length l -> at0 (rev l) k = at0 l (length l - S k).
Proof. intros H. unfold at0. apply rev_nth. exact H. Qed.
Lemma residual_rev e t xs r r' : even (e_norm e) -> 2 <= length xs -> residual e t xs r -> residual e t (rev xs) r' -> along e t (at0 xs 0) (at0 xs (length xs - 1)) -> r' = rev r.
Proof.
  intros E L (Lr & Rd & _) (Lr' & _ & Ru) A. rewrite rev_length in Lr', Ru. destruct (Rd A) as [D1 D2].
  assert (NA : ~ along e t (at0 (rev xs) 0) (at0 (rev xs) (length xs - 1))).
  { rewrite !at0_rev by lia. replace (length xs - S (length xs - 1)) with 0 by lia. unfold along in *. intros X.
    clear -X A.
    revert X A. generalize (dist e (t_start t) (at0 xs 0)) (dist e (t_end t) (at0 xs (length xs - 1))) (dist e (t_end t) (at0 xs 0)) (dist e (t_start t) (at0 xs (length xs - 1))). intros a b c d X A. qclra. }
  destruct (Ru NA) as [U1 U2]. apply (nth_ext _ _ 0%Qc 0%Qc); [rewrite rev_length; congruence|]. rewrite Lr'.
  assert (G : forall k, k < length xs -> nth k r' 0%Qc = nth (length xs - S k) r 0%Qc).
  { induction k as [|k IH]; intros Hk.
    - rewrite U1, D1. rewrite !at0_rev by lia. replace (length xs - 2) with (length xs - 2) by lia. rewrite (dist_sym e (at0 xs (length xs - 2)) _ E). reflexivity.
    - rewrite (U2 k Hk), (IH ltac:(lia)). rewrite !at0_rev by lia. rewrite (D2 (length xs - S (S k))) by lia. replace (S (length xs - S (S k))) with (length xs - S k) by lia. rewrite (dist_sym e (at0 xs (length xs - S (S k))) _ E). reflexivity. }
  intros k Hk. rewrite G by exact Hk. rewrite <- Lr in Hk |- *. symmetry. apply rev_nth. exact Hk.
Qed.

(** C146, the true part: when the charge is taken per hit, listing the hits of a track in the opposite order reverses every vector of the object and keeps the
    kinetic energy and the range; the residual ranges follow unless the two ends of the hits are equally good matches *)
Theorem C146_reversal_partial : forall e ts cs asn i x ts' cs' asn' i' x' p c c', per_hit e -> even (e_norm e) ->
  produce e ts = Ok (cs, asn) -> nth_error ts i = Some x -> produce e ts' = Ok (cs', asn') -> nth_error ts' i' = Some x' ->
  n_track x' = n_track x -> n_t0s x' = n_t0s x -> n_pfps x' = n_pfps x -> n_hits x' = rev (n_hits x) ->
  p < e_np e -> nth_error cs (i * e_np e + p) = Some c -> nth_error cs' (i' * e_np e + p) = Some c' ->
  c_xyz c' = rev (c_xyz c) /\ c_tp c' = rev (c_tp c) /\ c_dedx c' = rev (c_dedx c) /\ c_dqdx c' = rev (c_dqdx c) /\ c_pitch c' = rev (c_pitch c) /\ c_ef c' = rev (c_ef c) /\ c_phi c' = rev (c_phi c) /\
  c_ke c' = c_ke c /\ c_range c' = c_range c /\
  (let a := at0 (c_xyz c) 0 in let b := at0 (c_xyz c) (length (c_xyz c) - 1) in
   (dist e (t_start (n_track x)) a + dist e (t_end (n_track x)) b <> dist e (t_end (n_track x)) a + dist e (t_start (n_track x)) b)%Qc -> c_res c' = rev (c_res c)).
Proof.
  intros e ts cs asn i x ts' cs' asn' i' x' p c c' PH E H N H' N' Et E0 Ep Eh Hp Nc Nc'.
  destruct (object_per_hit e ts cs asn i x p c PH H N Hp Nc) as [B C]. destruct (object_per_hit e ts' cs' asn' i' x' p c' PH H' N' Hp Nc') as [B' C'].
  assert (T0 : t0_of e x' = t0_of e x) by (unfold t0_of; rewrite E0, Ep; reflexivity). rewrite Et, Eh in B', C'. rewrite T0 in C'.
  rewrite filter_rev in B', C'. rewrite rev_length in B', C'.
  set (ys := filter (sel (n_track x) p) (n_hits x)) in *. destruct (le_lt_dec (length ys) 1) as [L | L].
  - pose proof (B L) as Bc. pose proof (B' L) as Bc'. unfold bogus in Bc, Bc'. clear -Bc Bc'. subst c c'. cbn. do 9 (split; [reflexivity|]). intros _. reflexivity.
  - destruct (C L) as (X1 & X2 & X3 & X4 & X5 & X6 & X7 & X8). destruct (C' L) as (Y1 & Y2 & Y3 & Y4 & Y5 & Y6 & Y7 & Y8).
    assert (Z1 : c_xyz c' = rev (c_xyz c)) by (rewrite Y1, X1, map_rev; reflexivity).
    assert (D : c_xyz c <> []) by (intros X; rewrite X in X1; symmetry in X1; apply map_eq_nil in X1; rewrite X1 in L; cbn in L; lia).
    assert (D' : c_xyz c' <> []) by (rewrite Z1; intros X; apply D; rewrite <- (rev_involutive (c_xyz c)), X; reflexivity).
    destruct (object_res e ts cs asn i x p c H N Hp Nc D) as (L2 & R & Rg & _). destruct (object_res e ts' cs' asn' i' x' p c' H' N' Hp Nc' D') as (_ & R' & Rg' & _).
    split; [exact Z1|]. split; [rewrite Y2, X2, map_rev; reflexivity|]. split; [rewrite Y3, X3, map_rev; reflexivity|]. split; [rewrite Y4, X4, map_rev; reflexivity|].
    split; [rewrite Y5, X5, map_rev; reflexivity|]. split; [rewrite Y6, X6, map_rev; reflexivity|]. split; [rewrite Y7, X7, map_rev; reflexivity|].
    split; [rewrite Y8, X8; apply qsum_perm; symmetry; apply Permutation_rev|]. split.
    + rewrite Rg, Rg', Z1. assert (Pl : forall l, l <> [] -> path (e_norm e) (at0 l 0) (tl l) = poly (e_norm e) l) by (intros [|v l] X; [contradiction|reflexivity]).
      rewrite !Pl; [apply poly_rev; exact E|exact D|rewrite <- Z1; exact D'].
    + cbv zeta. intros NT. rewrite Et in R'. rewrite Z1 in R'.
      destruct (Qc_dec (dist e (t_start (n_track x)) (at0 (c_xyz c) 0) + dist e (t_end (n_track x)) (at0 (c_xyz c) (length (c_xyz c) - 1)))%Qc (dist e (t_end (n_track x)) (at0 (c_xyz c) 0) + dist e (t_start (n_track x)) (at0 (c_xyz c) (length (c_xyz c) - 1)))%Qc) as [[A | A] | A]; [| |contradiction].
      * exact (residual_rev e (n_track x) _ _ _ E L2 R R' A).
      * rewrite <- (rev_involutive (c_res c')). f_equal. symmetry.
        assert (R2 : residual e (n_track x) (rev (rev (c_xyz c))) (c_res c)) by (rewrite rev_involutive; exact R).
        apply (residual_rev e (n_track x) (rev (c_xyz c)) (c_res c') (c_res c) E); [rewrite rev_length; exact L2|exact R'|exact R2|].
        rewrite rev_length, !at0_rev by lia. replace (length (c_xyz c) - S (length (c_xyz c) - 1)) with 0 by lia. unfold along.
        revert A. clear. generalize (dist e (t_start (n_track x)) (at0 (c_xyz c) 0)) (dist e (t_end (n_track x)) (at0 (c_xyz c) 0)).
        generalize (dist e (t_end (n_track x)) (at0 (c_xyz c) (length (c_xyz c) - 1))) (dist e (t_start (n_track x)) (at0 (c_xyz c) (length (c_xyz c) - 1))).
        intros a b d f A. qclra.
Qed.
Print Assumptions C146_reversal_partial.
(** C146, refuted: on a tie the hits are always taken to run upstream, so the residual ranges depend on the order *)
Definition tie_track : track := Trk (fun _ => true) (fun m => if (m =? 1)%Z then V (ex_q 5) 0 0 else V (ex_q 5) (ex_q 5) 0)%Qc (fun _ => V 0 0 1)%Qc (V 0 0 0)%Qc (V (ex_q 10) 0 0)%Qc.
Definition tie_hits : hits := [(ex_hit 1 100 0 2 5 40, 1%Z); (ex_hit 2 100 0 2 5 41, 3%Z)].
Lemma qabs_opp z : qabs (- z)%Qc = qabs z.
Proof.
  rewrite !size_eq. unfold size. destruct (Qclt_le_dec (- z) 0) as [A | A], (Qclt_le_dec z 0) as [B | B]; try ring.
  - exfalso. qclra.
  - assert (z = 0)%Qc as -> by (apply Qcle_antisym; [qclra|exact B]). ring.
Qed.
Lemma ex_norm_even : even ex_norm.
Proof. intros v. unfold ex_norm. cbn [vx vy vz]. rewrite !qabs_opp. reflexivity. Qed.
Theorem C146_reversal_refuted : ~ forall e ts cs asn i x ts' cs' asn' i' x' p c c', per_hit e -> even (e_norm e) ->
  produce e ts = Ok (cs, asn) -> nth_error ts i = Some x -> produce e ts' = Ok (cs', asn') -> nth_error ts' i' = Some x' ->
  n_track x' = n_track x -> n_t0s x' = n_t0s x -> n_pfps x' = n_pfps x -> n_hits x' = rev (n_hits x) ->
  p < e_np e -> nth_error cs (i * e_np e + p) = Some c -> nth_error cs' (i' * e_np e + p) = Some c' -> c_res c' = rev (c_res c).
Proof.
  intros G. specialize (G (ex_env 1) [In_ tie_track tie_hits [] []]).
  remember (produce (ex_env 1) [In_ tie_track tie_hits [] []]) as o eqn:E. vm_compute in E. subst o.
  assert (G' := fun cs asn i x => G cs asn i x [In_ tie_track (rev tie_hits) [] []]). clear G. cbv beta in G'.
  remember (produce (ex_env 1) [In_ tie_track (rev tie_hits) [] []]) as o eqn:E. vm_compute in E. subst o.
  assert (G := G' _ _ 0 _ _ _ 0 _ 2 _ _ (or_intror eq_refl) ex_norm_even eq_refl eq_refl eq_refl eq_refl eq_refl eq_refl eq_refl eq_refl (ltac:(cbn; lia)) eq_refl eq_refl).
  cbn [c_res rev app] in G. apply (f_equal (fun l => match l with z :: _ => this z | [] => 0%Q end)) in G. discriminate G.
Qed.
Print Assumptions C146_reversal_refuted.

(** C147: the call succeeds exactly when every track has a PFParticle (if a PFParticle label is set) and no hit with a valid point is outside the detector; it throws
    std::out_of_range in the first case and is undefined in the second. Object [i * nplanes + p] belongs to track [i] and plane [p], and there are no others *)
Theorem C147_products : forall e ts,
  (pfps_ok e ts -> planes_ok e ts -> exists cs asn, produce e ts = Ok (cs, asn)) /\
  (~ pfps_ok e ts -> produce e ts = Throw RangeExn) /\
  (pfps_ok e ts -> ~ planes_ok e ts -> produce e ts = Undef) /\
  forall cs asn, produce e ts = Ok (cs, asn) ->
    length cs = length ts * e_np e /\ length asn = length ts * e_np e /\
    forall i p, i < length ts -> p < e_np e -> nth_error asn (i * e_np e + p) = Some (i, i * e_np e + p) /\ exists c, nth_error cs (i * e_np e + p) = Some c /\ c_plane c = (e_cryo e, 0, p).
Proof.
  intros e ts. destruct (produce_eq e ts) as [A B]. split; [|split; [|split] ].
  - intros P1 P2. rewrite (A P1). destruct (loop_total e ts P2) as [[cs asn] E]. exists cs, asn. exact E.
  - exact B.
  - intros P1 P2. rewrite (A P1). exact (loop_undef e ts P2).
  - intros cs asn H. assert (H' : produce_loop e ts = Ok (cs, asn)).
    { unfold produce in H. unfold produce_loop, pfp_list. destruct (e_pfp e); [|exact H].
      destruct (foreach ts (fun l x => do p <- at_ (n_pfps x) 0; Ok (l ++ [p])) []) as [l| |] eqn:F; cbn [obind] in H; try discriminate H.
      assert (G : forall x, In x ts -> n_pfps x <> []).
      { clear -F. assert (G : forall a l : list (list Qc), foreach ts (fun l x => do p <- at_ (n_pfps x) 0; Ok (l ++ [p])) a = Ok l -> forall x, In x ts -> n_pfps x <> []); [|exact (G [] l F)].
        clear. induction ts as [|y ts IH]; intros a l F x Hx; [destruct Hx|]. cbn [foreach] in F. unfold at_ in F at 1. destruct (n_pfps y) as [|l1 r] eqn:Ey; cbn [nth_error obind] in F; [discriminate F|].
        destruct Hx as [<- | Hx]; [rewrite Ey; discriminate|]. exact (IH _ l F x Hx). }
      rewrite (pfp_loop ts G) in F. injection F as <-. exact H. }
    destruct (loop_rows e ts _ H') as [(L1 & L2 & R) _]. cbn [fst snd] in *. split; [exact L1|]. split; [exact L2|].
    intros i p Hi Hp. destruct (nth_error ts i) as [x|] eqn:N; [|apply nth_error_None in N; lia].
    destruct (R i p x) as (ret & c & Ho & Hc & Nc & Na); [nia|exact Hp|exact N|]. split; [exact Na|]. exists c. split; [exact Nc|].
    destruct (object_at e ts cs asn i x p H N Hp) as (ret' & os & c' & _ & _ & Nc' & B' & C'). rewrite Nc in Nc'. injection Nc' as <-.
    destruct (le_lt_dec (length os) 1) as [L | L]; [rewrite (B' L); reflexivity|]. destruct (C' L) as (r & _ & ->). reflexivity.
Qed.
Print Assumptions C147_products.
Example C147_case : exists cs asn, produce (ex_env 3) [In_ ex_track ex_hits [] []; In_ ex_track line_hits [] []] = Ok (cs, asn) /\
  asn = [(0, 0); (0, 1); (0, 2); (1, 3); (1, 4); (1, 5)] /\ map (fun c => c_tp c) cs = [[]; []; [41; 42]; []; []; [40; 41; 42]].
Proof. remember (produce (ex_env 3) [In_ ex_track ex_hits [] []; In_ ex_track line_hits [] []]) as o eqn:E. vm_compute in E. subst o. eexists _, _. split; [reflexivity|]. split; reflexivity. Qed.

(** C148: the pitch. Without field distortions the pitch of a point is the wire pitch over the cosine of the angle between the track and the normal of the wires in
    the plane - or zero when the track runs along the wires *)
Definition homog (n : vec -> Qc) : Prop := forall k v, n (V (k * vx v) (k * vy v) (k * vz v))%Qc = (size k * n v)%Qc.
Definition cosine (e : env) (h : hit) (d : vec) : Qc := size (e_sin e h * vy d + e_cos e h * vz d)%Qc.
Lemma pitch_plain e t h m : (e_spatial e && e_fd e)%bool = false -> homog (e_norm e) -> e_norm e (t_dir t m) = 1%Qc ->
  pitch e t h m = if Qc_eq_dec (cosine e h (t_dir t m)) 0%Qc then 0%Qc else size (e_quot e (e_wp e h) (cosine e h (t_dir t m))).
Proof.
  intros S Hn U. unfold pitch, wire_to_traj, location_wires, traj_to_wire. rewrite S. cbn [andb]. rewrite size_eq. fold (cosine e h (t_dir t m)).
  set (k := if Qc_eq_dec (cosine e h (t_dir t m)) 0%Qc then 0%Qc else e_quot e (e_wp e h) (cosine e h (t_dir t m))).
  set (w := if e_corrected e then t_loc t m else t_loc t m).
  assert (X : vsub (vadd w (vscale k (t_dir t m))) w = V (k * vx (t_dir t m)) (k * vy (t_dir t m)) (k * vz (t_dir t m))%Qc) by (unfold vsub, vadd, vscale; cbn [vx vy vz]; f_equal; ring).
  rewrite X, Hn, U. unfold k. destruct (Qc_eq_dec (cosine e h (t_dir t m)) 0%Qc); [|ring]. unfold size. destruct (Qclt_le_dec 0 0); ring.
Qed.
(** C148, refuted: the pitch is at least the wire pitch *)
Definition par_track : track := Trk (fun _ => true) (fun m => V 0 (ex_q m) 0)%Qc (fun _ => V 0 1 0)%Qc (V 0 0 0)%Qc (V 0 (ex_q 10) 0)%Qc.
Lemma ex_norm_homog : homog ex_norm.
Proof.
  intros k v. unfold ex_norm. cbn [vx vy vz]. assert (G : forall a b, qabs (a * b)%Qc = (size a * qabs b)%Qc).
  { intros a b. rewrite !size_eq. unfold size. destruct (Qclt_le_dec (a * b) 0), (Qclt_le_dec a 0), (Qclt_le_dec b 0); try ring.
    - exfalso. qcnra.
    - exfalso. qcnra.
    - assert (a * b = 0)%Qc as X; [|rewrite X; symmetry; transitivity (- (a * b))%Qc; [ring|rewrite X; ring] ]. apply Qcle_antisym; [qcnra|assumption].
    - assert (a * b = 0)%Qc as X; [|rewrite X; symmetry; transitivity (- (a * b))%Qc; [ring|rewrite X; ring] ]. apply Qcle_antisym; [qcnra|assumption]. }
  rewrite !G. ring.
Qed.
Theorem C148_pitch_refuted : ~ forall e ts cs asn i x p c k y h m w, (e_spatial e && e_fd e)%bool = false -> homog (e_norm e) -> (forall a b, e_quot e a b = a / b)%Qc ->
  produce e ts = Ok (cs, asn) -> nth_error ts i = Some x -> p < e_np e -> nth_error cs (i * e_np e + p) = Some c ->
  nth_error (n_hits x) k = Some (h, m) -> e_norm e (t_dir (n_track x) m) = 1%Qc -> nth_error (c_pitch c) y = Some w -> nth_error (c_tp c) y = Some (h_key h) -> (0 < e_wp e h)%Qc -> (e_wp e h <= w)%Qc.
Proof.
  intros G. specialize (G (ex_env 1) [In_ par_track line_hits [] []]).
  remember (produce (ex_env 1) [In_ par_track line_hits [] []]) as o eqn:E. vm_compute in E. subst o.
  specialize (G _ _ 0 _ 2 _ 0 0 _ _ _ eq_refl ex_norm_homog (fun _ _ => eq_refl) eq_refl eq_refl (ltac:(cbn; lia)) eq_refl eq_refl (ltac:(apply Qc_is_canon; vm_compute; reflexivity)) eq_refl eq_refl (ltac:(vm_compute; reflexivity))).
  apply Qcle_not_lt in G. apply G. vm_compute. reflexivity.
Qed.
Print Assumptions C148_pitch_refuted.
Theorem C148_pitch_partial : forall e ts cs asn i x p, (e_spatial e && e_fd e)%bool = false -> homog (e_norm e) -> (forall a b, e_quot e a b = a / b)%Qc ->
  (forall h m, In (h, m) (n_hits x) -> e_norm e (t_dir (n_track x) m) = 1%Qc /\ (0 < e_wp e h)%Qc) ->
  produce e ts = Ok (cs, asn) -> nth_error ts i = Some x -> p < e_np e ->
  exists c ls, nth_error cs (i * e_np e + p) = Some c /\ (forall k, In k ls <-> stands e (n_hits x) (n_track x) p k) /\
    (2 <= length ls -> length (c_pitch c) = length ls /\ forall k j h m, nth_error ls k = Some j -> nth_error (n_hits x) j = Some (h, m) ->
      let g := cosine e h (t_dir (n_track x) m) in
      (g = 0%Qc -> nth_error (c_pitch c) k = Some 0%Qc) /\
      (g <> 0%Qc -> exists w, nth_error (c_pitch c) k = Some w /\ (w * g = e_wp e h)%Qc /\ (0 < w)%Qc /\ ((g <= 1)%Qc -> (e_wp e h <= w)%Qc))).
Proof.
  intros e ts cs asn i x p S Hn Hq Hu H N Hp. destruct (object_at e ts cs asn i x p H N Hp) as (ret & os & c & Ho & No & Nc & B & C).
  exists c, (map fst os). split; [exact Nc|]. split; [exact (stands_iff e x ret p os Ho No)|]. rewrite map_length. intros L. destruct (C ltac:(lia)) as (r & _ & ->). cbn [c_pitch]. rewrite map_length. split; [reflexivity|].
  intros k j h m Hk Nj. rewrite nth_error_map in Hk. destruct (nth_error os k) as [o|] eqn:Nk; [|discriminate Hk]. cbn in Hk. injection Hk as <-. rewrite nth_error_map, Nk. cbn [option_map].
  destruct (hh_nth _ _ _ _ Nj) as [Hh Hm]. destruct (Hu h m (nth_error_In _ _ Nj)) as [U W]. unfold p_pitch. rewrite Hh, Hm, (pitch_plain e _ h m S Hn U).
  assert (G0 : (0 <= cosine e h (t_dir (n_track x) m))%Qc) by (unfold cosine, size; destruct (Qclt_le_dec _ 0) as [A | A]; [revert A; generalize (e_sin e h * vy (t_dir (n_track x) m) + e_cos e h * vz (t_dir (n_track x) m))%Qc; clear; intros; qclra|exact A]).
  revert G0. generalize (cosine e h (t_dir (n_track x) m)) as g. intros g G0. cbv zeta. destruct (Qc_eq_dec g 0%Qc) as [Z | Z]; [split; [reflexivity|contradiction]|]. split; [contradiction|intros _].
  assert (Gp : (0 < g)%Qc) by (apply Qcnot_le_lt; intros X; apply Z; apply Qcle_antisym; assumption).
  rewrite Hq. assert (E1 : (e_wp e h / g * g = e_wp e h)%Qc) by (field; exact Z).
  assert (P : (0 < e_wp e h / g)%Qc). { apply Qcnot_le_lt. intros X. revert E1 X W Gp. generalize (e_wp e h / g)%Qc as a. generalize (e_wp e h) as b. clear. intros b a E1 X W Gp. assert (Y : (a * g <= 0)%Qc) by (replace 0%Qc with (0 * g)%Qc by ring; apply Qcmult_le_compat_r; [exact X|apply Qclt_le_weak; exact Gp]). rewrite E1 in Y. exact (Qclt_not_le _ _ W Y). }
  exists (e_wp e h / g)%Qc. split; [unfold size; destruct (Qclt_le_dec (e_wp e h / g) 0) as [Q | Q]; [exfalso; exact (Qclt_not_le _ _ Q (Qclt_le_weak _ _ P))|reflexivity]|].
  split; [exact E1|]. split; [exact P|]. intros G1. revert E1 P G1 Gp. generalize (e_wp e h / g)%Qc as a. generalize (e_wp e h) as b. clear. intros b a E1 P G1 Gp. rewrite <- E1. rewrite Qcmult_comm. replace a with (1 * a)%Qc at 2 by ring. apply Qcmult_le_compat_r; [exact G1|apply Qclt_le_weak; exact P].
Qed.
Print Assumptions C148_pitch_partial.
(** concrete cases: a straight line of three hits, listed forwards and backwards *)
Definition seen (o : outcome (list calo * list (nat * nat))) : list (list Q * list Q * Q) :=
  match o with Ok (cs, _) => map (fun c => (map this (c_res c), map this (c_pitch c), this (c_range c))) (filter (fun c => 1 <? length (c_xyz c)) cs) | _ => [] end.
Example C145_case : seen (produce (ex_env 1) [In_ ex_track line_hits [] []]) = [([5; 3; 1], [3; 3; 3], 4)%Q].
Proof. vm_compute. reflexivity. Qed.
Example C146_case : seen (produce (ex_env 1) [In_ ex_track (rev line_hits) [] []]) = [([1; 3; 5], [3; 3; 3], 4)%Q].
Proof. vm_compute. reflexivity. Qed.

(** Proofs for C37 *)
From Verif Require Import Base Util CMgr_Proofs TCand_Model TCand_Spec.
Local Open Scope nat_scope.

Section P.
Context {R : Type} (r0 : R).
Notation cand := (cand (R := R)). Notation hrec := (hrec (R := R)).

(** what may be known of a candidate: ids, also rho, also planes *)
Definition ids_ok (c : cand) (l : list hrec) : Prop := f_det c = map r_det l /\ f_hit c = map r_hit l.
Definition rho_ok (c : cand) (l : list hrec) : Prop := ids_ok c l /\ f_rho c = map r_rho l.
Definition plane_ok (c : cand) (l : list hrec) : Prop := ids_ok c l /\ f_plane c = map r_plane l.

Lemma at_map {A B} (f : A -> B) l i : at_ (map f l) i = match nth_error l i with Some x => Ok (f x) | None => Throw RangeExn end.
Proof. unfold at_. rewrite nth_error_map. destruct (nth_error l i); reflexivity. Qed.
Lemma idx_map {A B} (f : A -> B) l i : idx (map f l) i = match nth_error l i with Some x => Ok (f x) | None => Undef end.
Proof. unfold idx. rewrite nth_error_map. destruct (nth_error l i); reflexivity. Qed.
Lemma nhits_ids c l : ids_ok c l -> nhits c = length l.
Proof. intros [H _]. unfold nhits. rewrite H, map_length. reflexivity. Qed.
Lemma get2_ok c l i : ids_ok c l -> get2 c i = match nth_error l i with Some x => Ok (r_det x, r_hit x) | None => Throw UserExn end.
Proof.
  intros H. unfold get2. rewrite (nhits_ids c l H). destruct H as [-> ->]. rewrite !at_map. destruct (Nat.leb_spec (length l) i) as [L|L]; destruct (nth_error l i) eqn:E; try reflexivity.
  - assert (i < length l) by (apply nth_error_Some; congruence). lia.
  - apply nth_error_None in E. lia.
Qed.
Lemma get3_ok c l i : rho_ok c l -> get3 c i = match nth_error l i with Some x => Ok (r_det x, r_hit x, r_rho x) | None => Throw UserExn end.
Proof.
  intros [H Hr]. unfold get3. rewrite (nhits_ids c l H), Hr. destruct H as [-> ->]. rewrite !at_map. destruct (Nat.leb_spec (length l) i) as [L|L]; destruct (nth_error l i) eqn:E; try reflexivity.
  - assert (i < length l) by (apply nth_error_Some; congruence). lia.
  - apply nth_error_None in E. lia.
Qed.
Lemma get_plane_ok c l i : plane_ok c l -> get_plane c i = match nth_error l i with Some x => Ok (r_det x, r_hit x, r_plane x) | None => Throw UserExn end.
Proof.
  intros [H Hr]. unfold get_plane. rewrite (nhits_ids c l H), Hr. destruct H as [-> ->]. rewrite !at_map. destruct (Nat.leb_spec (length l) i) as [L|L]; destruct (nth_error l i) eqn:E; try reflexivity.
  - assert (i < length l) by (apply nth_error_Some; congruence). lia.
  - apply nth_error_None in E. lia.
Qed.
Lemma zip_det ds hs (rs : list R) : length ds = length hs -> length ds <= length rs -> map r_det (zip ds hs rs) = ds.
Proof. revert hs rs. induction ds as [|d ds IH]; intros [|h hs] [|r rs] H1 H2; cbn in *; try discriminate; try reflexivity; try lia. rewrite IH by lia. reflexivity. Qed.
Lemma zip_hit ds hs (rs : list R) : length ds = length hs -> length ds <= length rs -> map r_hit (zip ds hs rs) = hs.
Proof. revert hs rs. induction ds as [|d ds IH]; intros [|h hs] [|r rs] H1 H2; cbn in *; try discriminate; try reflexivity; try lia. rewrite IH by lia. reflexivity. Qed.
Lemma zip_rho ds hs (rs : list R) : length ds = length hs -> length ds <= length rs -> map r_rho (zip ds hs rs) = firstn (length ds) rs.
Proof. revert hs rs. induction ds as [|d ds IH]; intros [|h hs] [|r rs] H1 H2; cbn in *; try discriminate; try reflexivity; try lia. rewrite IH by lia. reflexivity. Qed.

(** append: what was copied after [n] turns *)
Definition copied (l : list hrec) : list hrec := map (fun x => mkR (r_det x) (r_hit x) (r_rho x) 0) l.
Lemma append_ok c rhs lc lr c' : ids_ok c lc -> ids_ok rhs lr -> append c rhs = Ok c' ->
  ids_ok c' (lc ++ copied lr) /\ (rho_ok c lc -> rho_ok rhs lr -> rho_ok c' (lc ++ copied lr)) /\ (plane_ok c lc -> plane_ok c' (lc ++ copied lr)).
Proof.
  intros Hc Hr E. unfold append, range in E. rewrite (nhits_ids _ _ Hr), Nat.sub_0_r in E.
  assert (X : forall n i c lc c', i + n = length lr -> ids_ok c lc -> for_ (seq i n) (fun c i => do x <- get3 rhs i; Ok (add_hit c (fst (fst x)) (snd (fst x)) (snd x) 0)) c = Ok c' ->
    ids_ok c' (lc ++ copied (skipn i lr)) /\ (rho_ok c lc -> rho_ok rhs lr -> rho_ok c' (lc ++ copied (skipn i lr))) /\ (plane_ok c lc -> plane_ok c' (lc ++ copied (skipn i lr)))).
  { clear c c' lc Hc E. induction n as [|n IH]; intros i c lc c' Hn Hc E.
    - cbn in E. inversion E; subst c'. rewrite skipn_all2 by lia. cbn. rewrite app_nil_r. auto.
    - cbn [seq for_] in E. destruct (get3 rhs i) as [[[d h] r]| |] eqn:Eg; try discriminate. cbn [obind fst snd] in E.
      destruct (nth_error lr i) as [x|] eqn:Ex; [|apply nth_error_None in Ex; lia].
      assert (Edh : d = r_det x /\ h = r_hit x).
      { unfold get3 in Eg. destruct (nhits rhs <=? i); [discriminate|]. destruct Hr as [H1 H2]. rewrite H1, H2, !at_map, Ex in Eg. cbn in Eg. destruct (at_ (f_rho rhs) i); cbn in Eg; inversion Eg; auto. }
      destruct Edh as [-> ->]. assert (Es : skipn i lr = x :: skipn (S i) lr).
      { clear -Ex. revert i Ex. induction lr as [|y l IH]; intros [|i] Ex; try discriminate; [inversion Ex; reflexivity|]. cbn [skipn]. apply IH, Ex. }
      assert (Hc' : ids_ok (add_hit c (r_det x) (r_hit x) r 0) (lc ++ [mkR (r_det x) (r_hit x) (r_rho x) 0])).
      { destruct Hc as [H1 H2]. split; cbn; rewrite map_app; [rewrite H1|rewrite H2]; reflexivity. }
      destruct (IH (S i) _ _ _ ltac:(lia) Hc' E) as (A & B & C). rewrite <- app_assoc in A, B, C. rewrite Es. cbn [copied map app] in *. split; [exact A|]. split.
      + intros P1 P2. apply B; [|exact P2]. split; [exact Hc'|]. rewrite (get3_ok _ _ _ P2), Ex in Eg. inversion Eg. cbn. rewrite map_app, (proj2 P1). reflexivity.
      + intros P1. apply C. split; [exact Hc'|]. cbn. rewrite map_app, (proj2 P1). reflexivity. }
  specialize (X (length lr) 0 c lc c' eq_refl Hc E). exact X.
Qed.
(** and it succeeds on aligned candidates *)
Lemma append_total c rhs lr : rho_ok rhs lr -> exists c', append c rhs = Ok c'.
Proof.
  intros H. unfold append, range. rewrite (nhits_ids _ _ (proj1 H)), Nat.sub_0_r. assert (X : forall n i c, i + n = length lr -> exists c', for_ (seq i n) (fun c i => do x <- get3 rhs i; Ok (add_hit c (fst (fst x)) (snd (fst x)) (snd x) 0)) c = Ok c').
  { induction n as [|n IH]; intros i c0 Hn; [exists c0; reflexivity|]. cbn [seq for_]. rewrite (get3_ok _ _ _ H). destruct (nth_error lr i) eqn:Ex; [|apply nth_error_None in Ex; lia]. cbn [obind]. apply IH. lia. }
  apply X. lia.
Qed.

Definition aligned (P : cand -> list hrec -> Prop) (w : list cand) (ls : list (list hrec)) : Prop := Forall2 P w ls.
Lemma F2_length {A B} (P : A -> B -> Prop) w ls : Forall2 P w ls -> length w = length ls.
Proof. induction 1; cbn; congruence. Qed.
Lemma F2_nth {A B} (P : A -> B -> Prop) w ls k c d : Forall2 P w ls -> nth_error w k = Some c -> P c (nth k ls d).
Proof. intros H. revert k. induction H; intros [|k] E; try discriminate; cbn in *; [inversion E; subst; assumption|apply IHForall2, E]. Qed.
Lemma F2_upd {A B} (P : A -> B -> Prop) w ls k c l : Forall2 P w ls -> P c l -> Forall2 P (upd w k c) (upd ls k l).
Proof. intros H HP. revert k. induction H; intros [|k]; cbn; constructor; auto. Qed.
Lemma F2_snoc {A B} (P : A -> B -> Prop) w ls c l : Forall2 P w ls -> P c l -> Forall2 P (w ++ [c]) (ls ++ [l]).
Proof. intros H HP. apply Forall2_app; [exact H|constructor; [exact HP|constructor]]. Qed.

Lemma set_idx_inv {A} (l : list A) i v w : set_idx l i v = Ok w -> w = upd l i v.
Proof. unfold set_idx. destruct (i <? length l); intros H; inversion H; reflexivity. Qed.
Lemma idx_inv {A} (l : list A) i v : idx l i = Ok v -> nth_error l i = Some v.
Proof. unfold idx. destruct (nth_error l i); intros H; inversion H; reflexivity. Qed.

(** one step, for each of the three kinds of knowledge *)
Lemma step_ids w ls o w' : Forall2 ids_ok w ls -> step r0 w o = Ok w' -> Forall2 ids_ok w' (log_step r0 ls o).
Proof.
  intros H E. destruct o as [|ds hs|ds hs rs|k d h r p|k j|k]; cbn [step log_step] in *.
  - inversion E. apply F2_snoc; [exact H|split; reflexivity].
  - unfold new5 in E. destruct (Nat.eqb_spec (length ds) (length hs)) as [L|L]; [|discriminate]. inversion E. apply F2_snoc; [exact H|]. split; cbn; symmetry; [apply zip_det|apply zip_hit]; rewrite ?repeat_length; lia.
  - unfold new6 in E. destruct (Nat.eqb_spec (length ds) (length hs)) as [L|L]; [|discriminate]. inversion E. apply F2_snoc; [exact H|]. split; cbn; symmetry; [apply zip_det|apply zip_hit]; rewrite ?app_length, ?repeat_length; lia.
  - destruct (idx w k) as [c| |] eqn:Ec; try discriminate. cbn [obind] in E. apply set_idx_inv in E. subst w'. apply idx_inv in Ec. apply F2_upd; [exact H|]. destruct (F2_nth _ _ _ _ _ [] H Ec) as [A B]. split; cbn; rewrite map_app; [rewrite A|rewrite B]; reflexivity.
  - destruct (idx w k) as [c| |] eqn:Ec; try discriminate. cbn [obind] in E. destruct (idx w j) as [x| |] eqn:Ex; try discriminate. cbn [obind] in E. destruct (Nat.eqb k j && (0 <? nhits c)); [discriminate|]. destruct (append c x) as [c'| |] eqn:Ea; try discriminate. cbn [obind] in E.
    apply set_idx_inv in E. subst w'. apply idx_inv in Ec, Ex. apply F2_upd; [exact H|]. exact (proj1 (append_ok c x _ _ c' (F2_nth _ _ _ _ _ [] H Ec) (F2_nth _ _ _ _ _ [] H Ex) Ea)).
  - destruct (idx w k) as [c| |] eqn:Ec; try discriminate. cbn [obind] in E. apply set_idx_inv in E. subst w'. apply F2_upd; [exact H|split; reflexivity].
Qed.
Lemma step_rho w ls o w' : is_reset o = false -> rhos_match o -> Forall2 rho_ok w ls -> step r0 w o = Ok w' -> Forall2 rho_ok w' (log_step r0 ls o).
Proof.
  intros Hn Hm H E. destruct o as [|ds hs|ds hs rs|k d h r p|k j|k]; cbn [step log_step] in *; try discriminate.
  - inversion E. apply F2_snoc; [exact H|repeat split; reflexivity].
  - unfold new5 in E. destruct (Nat.eqb_spec (length ds) (length hs)) as [L|L]; [|discriminate]. inversion E. apply F2_snoc; [exact H|]. repeat split; cbn; symmetry; [apply zip_det|apply zip_hit|rewrite zip_rho]; rewrite ?repeat_length; try lia. rewrite firstn_all2 by (rewrite repeat_length; lia). reflexivity.
  - unfold new6 in E. destruct (Nat.eqb_spec (length ds) (length hs)) as [L|L]; [|discriminate]. inversion E. cbn in Hm. apply F2_snoc; [exact H|]. repeat split; cbn; symmetry; [apply zip_det|apply zip_hit|rewrite zip_rho]; rewrite ?app_length, ?repeat_length; try lia. rewrite firstn_app, <- Hm, firstn_all, Nat.sub_diag. cbn. apply app_nil_r.
  - destruct (idx w k) as [c| |] eqn:Ec; try discriminate. cbn [obind] in E. apply set_idx_inv in E. subst w'. apply idx_inv in Ec. apply F2_upd; [exact H|]. destruct (F2_nth _ _ _ _ _ [] H Ec) as [[A B] C]. repeat split; cbn; rewrite map_app; [rewrite A|rewrite B|rewrite C]; reflexivity.
  - destruct (idx w k) as [c| |] eqn:Ec; try discriminate. cbn [obind] in E. destruct (idx w j) as [x| |] eqn:Ex; try discriminate. cbn [obind] in E. destruct (Nat.eqb k j && (0 <? nhits c)); [discriminate|]. destruct (append c x) as [c'| |] eqn:Ea; try discriminate. cbn [obind] in E.
    apply set_idx_inv in E. subst w'. apply idx_inv in Ec, Ex. assert (Pc := F2_nth _ _ _ _ _ [] H Ec). assert (Px := F2_nth _ _ _ _ _ [] H Ex). apply F2_upd; [exact H|]. exact (proj1 (proj2 (append_ok c x _ _ c' (proj1 Pc) (proj1 Px) Ea)) Pc Px).
Qed.
Lemma step_plane w ls o w' : is_reset o = false -> gives_hits o = false -> Forall2 plane_ok w ls -> step r0 w o = Ok w' -> Forall2 plane_ok w' (log_step r0 ls o).
Proof.
  intros Hn Hm H E. destruct o as [|ds hs|ds hs rs|k d h r p|k j|k]; cbn [step log_step] in *; try discriminate.
  - inversion E. apply F2_snoc; [exact H|repeat split; reflexivity].
  - destruct (idx w k) as [c| |] eqn:Ec; try discriminate. cbn [obind] in E. apply set_idx_inv in E. subst w'. apply idx_inv in Ec. apply F2_upd; [exact H|]. destruct (F2_nth _ _ _ _ _ [] H Ec) as [[A B] C]. repeat split; cbn; rewrite map_app; [rewrite A|rewrite B|rewrite C]; reflexivity.
  - destruct (idx w k) as [c| |] eqn:Ec; try discriminate. cbn [obind] in E. destruct (idx w j) as [x| |] eqn:Ex; try discriminate. cbn [obind] in E. destruct (Nat.eqb k j && (0 <? nhits c)); [discriminate|]. destruct (append c x) as [c'| |] eqn:Ea; try discriminate. cbn [obind] in E.
    apply set_idx_inv in E. subst w'. apply idx_inv in Ec, Ex. assert (Pc := F2_nth _ _ _ _ _ [] H Ec). assert (Px := F2_nth _ _ _ _ _ [] H Ex). apply F2_upd; [exact H|]. exact (proj2 (proj2 (append_ok c x _ _ c' (proj1 Pc) (proj1 Px) Ea)) Pc).
Qed.
Lemma run_gen (P : cand -> list hrec -> Prop) (Q : op (R := R) -> Prop) : (forall w ls o w', Q o -> Forall2 P w ls -> step r0 w o = Ok w' -> Forall2 P w' (log_step r0 ls o)) ->
  forall ops w, Forall Q ops -> run r0 ops = Ok w -> Forall2 P w (logs r0 ops).
Proof.
  intros Hs. unfold run, logs. assert (X : forall ops w0 ls w, Forall Q ops -> Forall2 P w0 ls -> foreach ops (step r0) w0 = Ok w -> Forall2 P w (fold_left (log_step r0) ops ls)).
  { induction ops as [|o ops IH]; intros w0 ls w HQ H E; [cbn in *; inversion E; subst; exact H|]. cbn [foreach] in E. destruct (step r0 w0 o) as [w1| |] eqn:E1; try discriminate. inversion HQ; subst. cbn [fold_left]. eapply IH; [assumption|eapply Hs; eassumption|exact E]. }
  intros ops w HQ E. apply (X ops [] [] w HQ); [constructor|exact E].
Qed.

Lemma in_track_ok c l d h : ids_ok c l -> exists b, in_track c d h = Ok b /\ (b = true <-> exists x, In x l /\ r_det x = d /\ r_hit x = h).
Proof.
  intros [H1 H2]. unfold in_track. rewrite H1, map_length.
  assert (X : forall n i, i + n = length l -> exists b, in_track_from n i c d h = Ok b /\ (b = true <-> exists x, In x (skipn i l) /\ r_det x = d /\ r_hit x = h)).
  { induction n as [|n IH]; intros i Hn.
    - exists false. split; [reflexivity|]. rewrite skipn_all2 by lia. split; [discriminate|intros (x & [] & _)].
    - cbn [in_track_from]. rewrite H1, H2, !idx_map. destruct (nth_error l i) as [x|] eqn:Ex; [|apply nth_error_None in Ex; lia]. cbn [obind].
      assert (Es : skipn i l = x :: skipn (i + 1) l). { clear -Ex. rewrite Nat.add_1_r. revert i Ex. induction l as [|y l' IH]; intros [|i] Ex; try discriminate; [inversion Ex; reflexivity|]. cbn [skipn]. apply IH, Ex. }
      destruct (IH (i + 1) ltac:(lia)) as (b & Eb & Hb). rewrite Es. destruct (Nat.eqb_spec d (r_det x)) as [Ed|Ed]; [destruct (Nat.eqb_spec h (r_hit x)) as [Eh|Eh]|].
      + exists true. split; [reflexivity|]. split; [|reflexivity]. intros _. exists x. split; [left; reflexivity|split; congruence].
      + exists b. split; [exact Eb|]. rewrite Hb. split; [intros (y & A & B); exists y; split; [right; exact A|exact B]|]. intros (y & [<-|A] & B & C); [congruence|]. exists y. auto.
      + exists b. split; [exact Eb|]. rewrite Hb. split; [intros (y & A & B); exists y; split; [right; exact A|exact B]|]. intros (y & [<-|A] & B & C); [congruence|]. exists y. auto. }
  apply (X (length l) 0). lia.
Qed.
Lemma hit_ids_ok c l d : ids_ok c l -> hit_ids c (Some d) = Ok (map r_hit (filter (fun x => Nat.eqb (r_det x) d) l)).
Proof.
  intros [H1 H2]. cbn [hit_ids]. unfold range. rewrite H1, H2, map_length, Nat.sub_0_r.
  assert (X : forall n i res, i + n = length l -> for_ (seq i n) (fun res i => do x <- idx (map r_det l) i; if Nat.eqb x d then do h <- idx (map r_hit l) i; Ok (res ++ [h]) else Ok res) res = Ok (res ++ map r_hit (filter (fun x => Nat.eqb (r_det x) d) (skipn i l)))).
  { induction n as [|n IH]; intros i res Hn; [cbn; rewrite skipn_all2 by lia; cbn; rewrite app_nil_r; reflexivity|]. cbn [seq for_]. rewrite !idx_map. destruct (nth_error l i) as [x|] eqn:Ex; [|apply nth_error_None in Ex; lia]. cbn [obind].
    assert (Es : skipn i l = x :: skipn (S i) l). { clear -Ex. revert i Ex. induction l as [|y l' IH]; intros [|i] Ex; try discriminate; [inversion Ex; reflexivity|]. cbn [skipn]. apply IH, Ex. }
    rewrite Es. cbn [filter]. destruct (Nat.eqb (r_det x) d); cbn [obind]; rewrite IH by lia; [rewrite <- app_assoc|]; reflexivity. }
  apply (X (length l) 0 []). lia.
Qed.
Lemma equal_range_ok a b : length a = length b -> exists r, equal_range a b = Ok r /\ (r = true <-> a = b).
Proof.
  revert b. induction a as [|x a IH]; intros [|y b] H; try discriminate; cbn [equal_range]; [exists true; split; [reflexivity|split; reflexivity]|]. destruct (Nat.eqb_spec x y) as [->|N].
  - destruct (IH b ltac:(cbn in H; lia)) as (r & E & Hr). exists r. split; [exact E|]. rewrite Hr. split; congruence.
  - exists false. split; [reflexivity|]. split; [discriminate|congruence].
Qed.
Lemma eq_cand_ok a b la lb : ids_ok a la -> ids_ok b lb -> exists r, eq_cand a b = Ok r /\ (r = true <-> map r_det la = map r_det lb /\ map r_hit la = map r_hit lb).
Proof.
  intros Ha Hb. unfold eq_cand. rewrite (nhits_ids _ _ Ha), (nhits_ids _ _ Hb). destruct Ha as [A1 A2], Hb as [B1 B2]. destruct (Nat.eqb_spec (length la) (length lb)) as [L|L]; cbn [negb].
  - rewrite A1, A2, B1, B2. destruct (equal_range_ok (map r_det la) (map r_det lb)) as (x & E1 & H1); [rewrite !map_length; exact L|]. destruct (equal_range_ok (map r_hit la) (map r_hit lb)) as (y & E2 & H2); [rewrite !map_length; exact L|].
    rewrite E1, E2. cbn [obind]. exists (x && y). split; [reflexivity|]. rewrite andb_true_iff. tauto.
  - exists false. split; [reflexivity|]. split; [discriminate|]. intros [X _]. apply (f_equal (@length nat)) in X. rewrite !map_length in X. contradiction.
Qed.
Lemma self_append_runs : forall fuel i c l, rho_ok c l -> i < length l -> self_append fuel i c = None.
Proof.
  induction fuel as [|fuel IH]; intros i c l H Hi; [reflexivity|]. cbn [self_append]. rewrite (nhits_ids _ _ (proj1 H)). destruct (Nat.ltb_spec i (length l)); [|lia]. rewrite (get3_ok _ _ _ H). destruct (nth_error l i) as [x|] eqn:Ex; [|apply nth_error_None in Ex; lia]. cbn [fst snd].
  apply (IH (i + 1) _ (l ++ [mkR (r_det x) (r_hit x) (r_rho x) 0])); [|rewrite app_length; cbn; lia]. destruct H as [[A B] C]. repeat split; cbn; rewrite map_app; [rewrite A|rewrite B|rewrite C]; reflexivity.
Qed.
End P.

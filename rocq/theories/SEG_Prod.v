(** splitHits, splitHitsNaive and the module TrackShowerHits *)
From Coq Require Import QArith Qcanon Permutation Sorted Lqa.
From Verif Require Import Base QcUtil Solver_Model Solver_Proofs SEG_Model SEG_Spec SEG_Simple SEG_Split SEG_Run SEG_Tag SEG_Dense SEG_Whole SEG_Props TJ_Proofs SPA_Loop.
Import SEG_Model.
Local Open Scope nat_scope.

(** * splitHits *)
Lemma split_hits_gen g : forall t e, fold_left (fun '(t, e) c => match hs c with [] => (t, e) | _ => if em c then (t, e ++ hs c) else (t ++ hs c, e) end) g (t, e) =
  (t ++ concat (map hs (filter (fun c => negb (em c)) g)), e ++ concat (map hs (filter em g))).
Proof.
  induction g as [|c g IH]; intros t e; cbn [fold_left filter map concat]; [rewrite !app_nil_r; reflexivity|].
  assert (X : (match hs c with [] => (t, e) | _ => if em c then (t, e ++ hs c) else (t ++ hs c, e) end) = (if em c then (t, e ++ hs c) else (t ++ hs c, e))) by (destruct (hs c); [rewrite !app_nil_r; destruct (em c); reflexivity|reflexivity]). rewrite X. clear X.
  destruct (em c); cbn [negb map concat]; rewrite IH, <- app_assoc; reflexivity.
Qed.
(** C155: every hit of a cluster goes to the EM hits if the cluster is EM and to the track hits otherwise, in order *)
Theorem split_hits_exact g : split_hits g = (concat (map hs (filter (fun c => negb (em c)) g)), concat (map hs (filter em g))).
Proof. unfold split_hits. rewrite split_hits_gen. reflexivity. Qed.
Print Assumptions split_hits_exact.

(** * splitHitsNaive *)
Lemma fold_split (f : hit -> bool) l : forall t e, fold_left (fun '(t, e) hx => if f hx then (t, e ++ [hx]) else (t ++ [hx], e)) l (t, e) = (t ++ filter (fun h => negb (f h)) l, e ++ filter f l).
Proof. induction l as [|h l IH]; intros t e; cbn [fold_left filter]; [rewrite !app_nil_r; reflexivity|]. destruct (f h); cbn [negb]; rewrite IH, <- app_assoc; reflexivity. Qed.
Lemma distinct_nodup l : distinct l -> NoDup l. Proof. apply NoDup_map_inv. Qed.
Lemma distinct_eq l a b : distinct l -> In a l -> In b l -> key a = key b -> a = b.
Proof.
  unfold distinct. induction l as [|x l IH]; intros N A B E; [destruct A|]. cbn [map] in N. inversion N as [|? ? N1 N2]; subst. destruct A as [A|A], B as [B|B]; subst; auto; exfalso; apply N1; [rewrite E|rewrite <- E]; apply in_map; assumption.
Qed.
Section A.
Variable cf : cfg.
Lemma crowd_spec l h : distinct l -> In h l -> (f_minH cf <? nei cf l h) = true <-> crowded (f_hrad cf) (f_minH cf) l h.
Proof.
  intros D Ih. unfold nei. set (f := fun hy => negb (key h =? key hy) && qc_lt (dist2 (pos h) (pos hy)) (f_hrad cf * f_hrad cf)%Qc).
  assert (If : forall x, In x (filter f l) <-> In x l /\ x <> h /\ (dist2 (pos h) (pos x) < f_hrad cf * f_hrad cf)%Qc).
  { intros x. rewrite filter_In. unfold f. rewrite andb_true_iff, negb_true_iff, Nat.eqb_neq, qc_lt_spec. split; [intros (A & B & C); split; [exact A|]; split; [congruence|exact C]|]. intros (A & B & C). split; [exact A|]. split; [|exact C]. intros X. apply B. symmetry. apply (distinct_eq l h x D Ih A X). }
  rewrite Nat.ltb_lt. split.
  - intros L. exists (firstn (S (f_minH cf)) (filter f l)). assert (Nf : NoDup (filter f l)) by apply NoDup_filter, distinct_nodup, D. split; [|split].
    + rewrite <- (firstn_skipn (S (f_minH cf)) (filter f l)) in Nf. apply nodup_app_iff in Nf. apply Nf.
    + apply firstn_length_le. lia.
    + intros x X. apply If. rewrite <- (firstn_skipn (S (f_minH cf)) (filter f l)). apply in_or_app. auto.
  - intros (s & N & L & I). assert (length s <= length (filter f l)); [|lia]. apply NoDup_incl_length; [exact N|]. intros x X. apply If, I, X.
Qed.
(** the split of one cluster is exactly by crowding *)
Theorem naive_split_exact l : distinct l -> exists f, (forall h, In h l -> f h = true <-> crowded (f_hrad cf) (f_minH cf) l h) /\ split_naive cf l = (filter (fun h => negb (f h)) l, filter f l).
Proof.
  intros D. exists (fun hx => f_minH cf <? nei cf l hx). split; [intros h Ih; apply crowd_spec; assumption|]. unfold split_naive. rewrite (fold_split (fun hx => f_minH cf <? nei cf l hx)). reflexivity.
Qed.
Lemma nei_concat g hx : forall n, fold_left (fun n cy => n + nei cf (hs cy) hx) g n = n + nei cf (concat (map hs g)) hx.
Proof.
  induction g as [|c g IH]; intros n; cbn [fold_left map concat]; [cbn; lia|]. rewrite IH. unfold nei. rewrite filter_app, app_length. lia.
Qed.
Lemma fold_concat (f : list hit * list hit -> hit -> list hit * list hit) g : forall s, fold_left (fun s c => fold_left f (hs c) s) g s = fold_left f (concat (map hs g)) s.
Proof. induction g as [|c g IH]; intros s; cbn [fold_left map concat]; [reflexivity|]. rewrite IH, fold_left_app. reflexivity. Qed.
(** the split of many clusters is the split of all their hits together *)
Theorem naive_split_many g : split_naive2 cf g = split_naive cf (concat (map hs g)).
Proof.
  unfold split_naive2, split_naive. rewrite fold_concat. generalize (@nil hit, @nil hit). assert (G : forall l s, fold_left (fun '(t, e) hx => if f_minH cf <? fold_left (fun n cy => n + nei cf (hs cy) hx) g 0 then (t, e ++ [hx]) else (t ++ [hx], e)) l s = fold_left (fun '(t, e) hx => if f_minH cf <? nei cf (concat (map hs g)) hx then (t, e ++ [hx]) else (t ++ [hx], e)) l s).
  { induction l as [|h l IH]; intros [t e]; [reflexivity|]. cbn [fold_left]. rewrite nei_concat. cbn [plus]. apply IH. }
  apply G.
Qed.

(** * the module *)
Lemma huge_eq : forall todo done back, huge cf todo done back = done ++ filter (fun c => length (hs c) <? 2) todo ++ back ++
   flat_map (fun c => if length (hs c) <? 2 then [] else [fresh (fst (split_naive cf (hs c))); set_em (fresh (snd (split_naive cf (hs c))))]) todo.
Proof.
  induction todo as [|c todo IH]; intros done back; cbn [huge filter flat_map]; [rewrite app_nil_r; reflexivity|]. destruct (length (hs c) <? 2); rewrite IH; [rewrite <- !app_assoc; reflexivity|]. rewrite <- !app_assoc. reflexivity.
Qed.
Lemma perm_split (f : hit -> bool) l : Permutation (filter (fun h => negb (f h)) l ++ filter f l) l.
Proof. induction l as [|x l IH]; [constructor|]. cbn [filter]. destruct (f x); cbn [negb app]; [apply Permutation_sym, Permutation_cons_app, Permutation_sym; exact IH|constructor; exact IH]. Qed.
Lemma naive_perm l : Permutation (fst (split_naive cf l) ++ snd (split_naive cf l)) l.
Proof. unfold split_naive. rewrite (fold_split (fun hx => f_minH cf <? nei cf l hx)). cbn [fst snd app]. apply perm_split. Qed.
Lemma huge_perm l : Permutation (concat (map hs (huge cf l [] []))) (concat (map hs l)).
Proof.
  rewrite huge_eq. cbn [app]. induction l as [|c l IH]; [constructor|]. cbn [filter flat_map]. destruct (length (hs c) <? 2); cbn [app map concat].
  - apply Permutation_app_head, IH.
  - rewrite map_app, concat_app in *. cbn [map concat hs fresh set_em] in *. transitivity ((fst (split_naive cf (hs c)) ++ snd (split_naive cf (hs c))) ++ concat (map hs (filter (fun c => length (hs c) <? 2) l)) ++ concat (map hs (flat_map (fun c => if length (hs c) <? 2 then [] else [fresh (fst (split_naive cf (hs c))); set_em (fresh (snd (split_naive cf (hs c))))]) l))); [|rewrite naive_perm, IH; reflexivity].
    rewrite <- app_assoc. set (A := concat (map hs (filter _ l))). set (B := concat (map hs (flat_map _ l))). rewrite (Permutation_app_swap_app A). apply Permutation_app_head. rewrite (Permutation_app_swap_app A). reflexivity.
Qed.
Variable srt : pt -> list hit -> list hit.
Hypothesis So : sorts srt.
(** a view ends with clusters that hold each of its hits at most once *)
Definition kept (l : list hit) (g : list clu) : Prop := exists rest, Permutation (concat (map hs g) ++ rest) l.
Lemma more_ok : usable cf -> forall todo done back, distinct (concat (map hs todo)) -> exists g, returns (fun n => more srt cf n todo done back) (Ok g) /\ kept (concat (map hs done) ++ concat (map hs back) ++ concat (map hs todo)) g.
Proof.
  intros U. induction todo as [|c todo IH]; intros done back D; cbn [more].
  - exists (done ++ back). split; [exists 0; reflexivity|]. exists []. rewrite map_app, concat_app, !app_nil_r. reflexivity.
  - cbn [map concat] in D. destruct (distinct_app _ _ D) as (D1 & D2). destruct (em c || (length (hs c) <? 2)) eqn:Cn.
    + destruct (IH (done ++ [c]) back D2) as (g & R & (rest & P)). exists g. split; [exact R|]. exists rest. rewrite P, map_app, concat_app. cbn [map concat]. rewrite app_nil_r, <- app_assoc. apply Permutation_app_head. rewrite Permutation_app_swap_app. reflexivity.
    + destruct (segmentation_ends_partial srt cf (hs c) So U D1) as (segs & Rs). destruct (segmentation_hits_partial srt cf (hs c) segs So U D1 Rs) as ((left & _ & Pl) & _).
      destruct (IH done (back ++ segs) D2) as (g & R & (rest & P)). exists g. split.
      * destruct R as (n1 & R1), Rs as (n2 & R2). exists (n1 + n2). intros n L. cbv beta. rewrite R2 by lia. apply R1. lia.
      * exists (left ++ rest). rewrite app_assoc, (Permutation_app_comm (concat (map hs g)) left), <- app_assoc, P, map_app, concat_app. cbn [map concat]. rewrite <- Pl at 1. rewrite (Permutation_app_comm (concat (map hs segs)) left). rewrite Permutation_app_swap_app. apply Permutation_app_head. rewrite <- !app_assoc. rewrite Permutation_app_swap_app. apply Permutation_app_head. reflexivity.
Qed.
Lemma view_ok fh fm l : (fm = true -> usable cf) -> distinct l -> exists cls, returns (fun n => simple n l) cls /\ exists g, returns (fun n => one_view srt cf fh fm n l) (Ok g) /\ kept l g /\ (fm = false -> g = if fh then huge cf (map fresh cls) [] [] else map fresh cls).
Proof.
  intros U D. destruct (simple_partition l) as (cls & R & P & N). exists cls. split; [exact R|]. set (c1 := map fresh cls).
  assert (H1 : map hs c1 = cls) by (unfold c1; rewrite map_map; cbn; apply map_id). set (c2 := if fh then huge cf c1 [] [] else c1).
  assert (P2 : Permutation (concat (map hs c2)) l) by (unfold c2; destruct fh; [rewrite huge_perm|]; rewrite H1; exact P). destruct R as (n1 & R1). destruct fm.
  - destruct (more_ok (U eq_refl) c2 [] [] (distinct_perm _ _ (Permutation_sym P2) D)) as (g & (n2 & R2) & (rest & Pg)). cbn [map concat app] in Pg. exists g. split; [exists (n1 + n2); intros n L; unfold one_view; rewrite R1 by lia; apply R2; lia|]. split; [exists rest; rewrite Pg; exact P2|discriminate].
  - exists c2. split; [exists n1; intros n L; unfold one_view; rewrite R1 by lia; reflexivity|]. split; [exists []; rewrite app_nil_r; exact P2|]. reflexivity.
Qed.
Definition is_out (c : clu) : bool := em c && negb (match hs c with [] => true | _ => false end).
Lemma write_hits cls : forall o, map o_hits (write o cls) = map o_hits o ++ map hs (filter is_out cls).
Proof.
  unfold write. induction cls as [|c cls IH]; intros o; cbn [fold_left filter map]; [rewrite app_nil_r; reflexivity|]. rewrite IH. unfold is_out at 2. destruct (hs c) as [|h r] eqn:Hc; cbn [negb]; [rewrite andb_false_r; reflexivity|]. destruct (em c); cbn [andb map]; [|reflexivity]. rewrite map_app, <- app_assoc. cbn [map app o_hits]. rewrite Hc. reflexivity.
Qed.
Definition numbered (o : list out) : Prop := forall k x, nth_error o k = Some x -> o_id x = (65536 + Z.of_nat k)%Z.
Lemma write_ids cls : forall o, numbered o -> numbered (write o cls).
Proof.
  unfold write. induction cls as [|c cls IH]; intros o N; cbn [fold_left]; [exact N|]. apply IH. destruct (hs c) as [|h r]; [exact N|]. destruct (em c); [|exact N]. intros k x E. destruct (Nat.lt_ge_cases k (length o)) as [L|L]; [rewrite nth_error_app1 in E by exact L; apply N, E|]. rewrite nth_error_app2 in E by exact L. destruct (k - length o) as [|m] eqn:Em; cbn [nth_error] in E; [|destruct m; discriminate]. assert (x = Out (Z.of_nat (length o) + em_tag) (view h) (h :: r)) by congruence. subst x. cbn [o_id]. unfold em_tag. replace k with (length o) by lia. lia.
Qed.
Lemma write_view cls : forall o x, In x (write o cls) -> In x o \/ exists c h r, In c cls /\ em c = true /\ hs c = h :: r /\ o_hits x = hs c /\ o_view x = view h.
Proof.
  unfold write. induction cls as [|c cls IH]; intros o x I; cbn [fold_left] in I; [auto|]. apply IH in I as [I|(c' & h & r & A & B)]; [|right; exists c', h, r; split; [right; exact A|exact B]]. destruct (hs c) as [|h r] eqn:Hc; [auto|]. destruct (em c) eqn:Em; [|auto]. apply in_app_or in I as [I|[<-|[]]]; [auto|]. right. exists c, h, r. cbn. auto 8.
Qed.
Lemma filter_perm (f : clu -> bool) g : exists rest, Permutation (concat (map hs (filter f g)) ++ rest) (concat (map hs g)).
Proof.
  induction g as [|c g (rest & P)]; [exists []; constructor|]. cbn [filter map concat]. destruct (f c).
  - exists rest. cbn [map concat]. rewrite <- app_assoc, P. reflexivity.
  - exists (hs c ++ rest). rewrite Permutation_app_swap_app, P. reflexivity.
Qed.
Lemma all_views_ok fh fm : (fm = true -> usable cf) -> forall L o, (forall v, In v L -> distinct v) -> numbered o ->
  exists gs o', Forall2 (fun v g => returns (fun n => one_view srt cf fh fm n v) (Ok g) /\ kept v g) L gs /\ returns (fun n => all_views srt cf fh fm n L o) (Ok o') /\ numbered o' /\
    map o_hits o' = map o_hits o ++ concat (map (fun g => map hs (filter is_out g)) gs) /\ (forall x, In x o' -> In x o \/ exists v c h r, In v L /\ o_hits x = c /\ c = h :: r /\ incl c v /\ o_view x = view h).
Proof.
  intros U. induction L as [|v L IH]; intros o D N.
  - exists [], o. split; [constructor|]. split; [exists 0; reflexivity|]. split; [exact N|]. split; [cbn; rewrite app_nil_r; reflexivity|auto].
  - destruct (view_ok fh fm v U (D v (or_introl eq_refl))) as (cls & _ & g & R & K & _). destruct (IH (write o g)) as (gs & o' & F & R' & N' & E' & V'); [intros w W; apply D; right; exact W|apply write_ids, N|].
    exists (g :: gs), o'. split; [constructor; auto|]. split; [|split; [exact N'|split]].
    + destruct R as (n1 & R1), R' as (n2 & R2). exists (n1 + n2). intros n Ln. cbn [all_views]. rewrite R1 by lia. apply R2. lia.
    + rewrite E', write_hits, <- app_assoc. reflexivity.
    + intros x X. destruct (V' x X) as [Y|(w & c & h & r & W & Z)]; [|right; exists w, c, h, r; split; [right; exact W|exact Z]]. apply write_view in Y as [Y|(c & h & r & Ic & Em & Hc & Ho & Hv)]; [auto|]. right. exists v, (hs c), h, r. split; [left; reflexivity|]. split; [exact Ho|]. split; [exact Hc|]. split; [|exact Hv].
      destruct K as (rest & P). intros y Y. apply (Permutation_in _ P), in_or_app. left. apply in_concat. exists (hs c). split; [apply in_map, Ic|exact Y].
Qed.
(** the planes *)
Lemma in_views l v : In v (views l) <-> exists h, In h l /\ view h = v.
Proof.
  unfold views. rewrite filter_In, in_range, existsb_exists. split; [intros (_ & h & I & E); exists h; split; [exact I|apply Nat.eqb_eq, E]|]. intros (h & I & E). split; [|exists h; split; [exact I|apply Nat.eqb_eq, E]].
  assert (G : forall l m, m <= fold_left (fun m h => Nat.max m (view h)) l m /\ forall x, In x l -> view x <= fold_left (fun m h => Nat.max m (view h)) l m).
  { clear. induction l as [|y l IH]; intros m; cbn [fold_left]; [split; [lia|intros x []]|]. destruct (IH (Nat.max m (view y))) as (A & B). split; [lia|]. intros x [<-|X]; [lia|apply B, X]. }
  destruct (G l 0) as (_ & B). specialize (B h I). lia.
Qed.
Lemma by_view_in geom hits v : In v (flat_map (fun t => by_view t hits) geom) -> exists t w, In t geom /\ v = filter (fun h => in_tpc t h && (view h =? w)) hits /\ v <> [].
Proof.
  rewrite in_flat_map. intros (t & It & I). unfold by_view in I. apply in_map_iff in I as (w & <- & Iw). exists t, w. split; [exact It|]. split; [reflexivity|]. apply in_views in Iw as (h & Ih & Hv). apply filter_In in Ih as [Ih Ht]. intros X. assert (Y : In h (filter (fun h => in_tpc t h && (view h =? w)) hits)) by (apply filter_In; split; [exact Ih|]; rewrite Ht, Hv, Nat.eqb_refl; reflexivity). rewrite X in Y. destruct Y.
Qed.
Lemma tpc_eq t h : in_tpc t h = true <-> t = (cryo h, tpc h).
Proof. unfold in_tpc. rewrite andb_true_iff, !Nat.eqb_eq. destruct t as [a b]. cbn [fst snd]. split; [intros [-> ->]; reflexivity|intros [= -> ->]; auto]. Qed.
Lemma in_planes geom hits h : In h (concat (flat_map (fun t => by_view t hits) geom)) <-> In h hits /\ In (cryo h, tpc h) geom.
Proof.
  rewrite in_concat. split.
  - intros (v & Iv & Ih). apply by_view_in in Iv as (t & w & It & -> & _). apply filter_In in Ih as [Ih C]. apply andb_true_iff in C as [C _]. apply tpc_eq in C. subst t. auto.
  - intros (Ih & It). exists (filter (fun x => in_tpc (cryo h, tpc h) x && (view x =? view h)) hits). assert (T : in_tpc (cryo h, tpc h) h = true) by (apply tpc_eq; reflexivity). split.
    + apply in_flat_map. exists (cryo h, tpc h). split; [exact It|]. unfold by_view. apply in_map_iff. exists (view h). split; [reflexivity|]. apply in_views. exists h. split; [apply filter_In; auto|reflexivity].
    + apply filter_In. split; [exact Ih|]. rewrite T, Nat.eqb_refl. reflexivity.
Qed.
Lemma planes_nodup geom hits : NoDup geom -> NoDup hits -> NoDup (concat (flat_map (fun t => by_view t hits) geom)).
Proof.
  intros Ng Nh. assert (E : concat (flat_map (fun t => by_view t hits) geom) = flat_map (fun t => concat (by_view t hits)) geom) by (clear; induction geom as [|t g IH]; [reflexivity|]; cbn [flat_map]; rewrite concat_app, IH; reflexivity). rewrite E.
  assert (G : forall {T} (f : T -> list hit) l, NoDup l -> (forall a, In a l -> NoDup (f a)) -> (forall a b x, In x (f a) -> In x (f b) -> a = b) -> NoDup (flat_map f l)).
  { clear. induction l as [|a l IH]; intros Nl Nf Inj; [constructor|]. cbn [flat_map]. inversion Nl as [|? ? Na Nl']; subst. apply nodup_app_iff. split; [apply Nf; left; reflexivity|]. split; [apply IH; [exact Nl'|intros b B; apply Nf; right; exact B|exact Inj]|]. intros x X Y. apply in_flat_map in Y as (b & B & Y). assert (a = b) by (apply (Inj a b x X Y)). subst. contradiction. }
  apply G; [exact Ng| |].
  - intros t _. unfold by_view. rewrite <- flat_map_concat_map. apply G; [apply NoDup_filter, seq_NoDup|intros; apply NoDup_filter, Nh|]. intros a b x A B. apply filter_In in A as [_ A], B as [_ B]. apply andb_true_iff in A as [_ A], B as [_ B]. apply Nat.eqb_eq in A, B. congruence.
  - intros a b x A B. apply in_concat in A as (u & Iu & A). apply in_concat in B as (w & Iw & B). unfold by_view in *. apply in_map_iff in Iu as (? & <- & _). apply in_map_iff in Iw as (? & <- & _). apply filter_In in A as [_ A], B as [_ B]. apply andb_true_iff in A as [A _], B as [B _]. apply tpc_eq in A, B. congruence.
Qed.
Lemma distinct_sub a b : distinct b -> incl a b -> NoDup a -> distinct a.
Proof.
  intros D I N. unfold distinct. induction a as [|x a IH]; [constructor|]. inversion N as [|? ? N1 N2]; subst. cbn [map]. constructor; [|apply IH; [intros y Y; apply I; right; exact Y|exact N2]].
  intros X. apply in_map_iff in X as (y & E & Y). apply N1. assert (y = x) by (apply (distinct_eq b y x D); [apply I; right; exact Y|apply I; left; reflexivity|exact E]). congruence.
Qed.
(** C156: the module ends; the written clusters are numbered from 0x10000 without gaps, none is empty, each lies in one plane of a TPC of the geometry and carries its view, and no hit is in two of them *)
Theorem produce_written fh fm geom hits : (fm = true -> usable cf) -> NoDup geom -> distinct hits ->
  exists o, returns (fun n => produce srt cf fh fm n geom hits) (Ok o) /\ (forall k x, nth_error o k = Some x -> o_id x = (65536 + Z.of_nat k)%Z) /\ distinct (concat (map o_hits o)) /\
    (forall x, In x o -> o_hits x <> [] /\ forall a, In a (o_hits x) -> In a hits /\ In (cryo a, tpc a) geom /\ view a = o_view x /\ forall b, In b (o_hits x) -> same_plane a b).
Proof.
  intros U Ng D. pose proof (distinct_nodup _ D) as Nh. set (L := flat_map (fun t => by_view t hits) geom).
  assert (Dv : forall v, In v L -> distinct v) by (intros v I; apply by_view_in in I as (t & w & _ & -> & _); apply distinct_filter, D).
  destruct (all_views_ok fh fm U L [] Dv) as (gs & o & F & R & N & E & V); [intros k x X; destruct k; discriminate|]. exists o. split; [exact R|]. split; [exact N|]. split.
  - assert (P : exists rest, Permutation (concat (map o_hits o) ++ rest) (concat L)).
    { rewrite E. cbn [map app]. clear -F. induction F as [|v g L gs (_ & (r1 & P1)) F (r2 & P2)]; [exists []; constructor|]. cbn [map concat]. rewrite concat_app. destruct (filter_perm is_out g) as (r3 & P3). exists (r3 ++ r1 ++ r2). set (A := concat (map hs (filter is_out g))) in *. set (B := concat (concat (map (fun g => map hs (filter is_out g)) gs))) in *.
      rewrite <- P1, <- P2, <- P3. rewrite <- !app_assoc. apply Permutation_app_head. rewrite (app_assoc r3 r1), (app_assoc r3 r1). rewrite Permutation_app_swap_app. reflexivity. }
    destruct P as (rest & P). assert (Dl : distinct (concat L)) by (apply (distinct_sub _ hits D); [intros h Ih; apply in_planes in Ih; tauto|apply planes_nodup; assumption]). apply (distinct_perm _ _ (Permutation_sym P)), distinct_app in Dl. apply Dl.
  - intros x X. destruct (V x X) as [[]|(v & c & h & r & Iv & Ec & Hc & Ic & Hv)]. rewrite Ec. split; [rewrite Hc; discriminate|]. apply by_view_in in Iv as (t & w & It & -> & _).
    assert (Pl : forall a, In a c -> In a hits /\ t = (cryo a, tpc a) /\ view a = w) by (intros a A; apply Ic in A; apply filter_In in A as [A1 A2]; apply andb_true_iff in A2 as [A2 A3]; apply tpc_eq in A2; apply Nat.eqb_eq in A3; auto).
    assert (Hw : view h = w) by (apply Pl; rewrite Hc; left; reflexivity). intros a A. destruct (Pl a A) as (A1 & A2 & A3). split; [exact A1|]. split; [rewrite <- A2; exact It|]. split; [congruence|]. intros b B. destruct (Pl b B) as (B1 & B2 & B3). unfold same_plane. split; [congruence|]. split; congruence.
Qed.
End A.
Print Assumptions naive_split_exact.
Print Assumptions naive_split_many.
Print Assumptions produce_written.

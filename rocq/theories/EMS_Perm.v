(** Proofs about OrderShowerHits: hits kept, orientations tried. *)
From Coq Require Import QArith Qcanon.
From Verif Require Import Base QcUtil Solver_Model Solver_Proofs CMgr_Proofs CCB_Hist EMS_Model EMS_Map EMS_Spec EMS_Assoc EMS_Planes EMS_Order EMS_Iso.
Local Open Scope nat_scope.

Lemma mfind_merase {A} k b (m : zmap A) : ordered m -> mfind k (merase b m) = if (k =? b)%Z then None else mfind k m.
Proof.
  unfold ordered. induction m as [|[a x] m IH]; intros O; cbn [merase mfind]; [destruct (k =? b)%Z; reflexivity|].
  cbn [keys map fst] in O. inversion O as [|? ? S F]; subst. destruct (Z.eqb_spec b a) as [->|N].
  - destruct (Z.eqb_spec k a) as [->|]; [|reflexivity]. apply mfind_none. intros Hi. rewrite Forall_forall in F. specialize (F a Hi). lia.
  - cbn [mfind]. rewrite (IH S). destruct (Z.eqb_spec k a) as [->|]; [|reflexivity]. destruct (Z.eqb_spec a b); [congruence|reflexivity].
Qed.
Lemma merase_ordered {A} b (m : zmap A) : ordered m -> ordered (merase b m).
Proof.
  unfold ordered. induction m as [|[a x] m IH]; intros O; cbn [merase]; [exact O|]. cbn [keys map fst] in O. inversion O as [|? ? S F]; subst.
  destruct (b =? a)%Z; [exact S|]. cbn [keys map fst]. constructor; [apply IH, S|]. rewrite Forall_forall in *. intros z Hz. apply F.
  clear -Hz. induction m as [|[c y] m IH]; cbn [merase] in Hz; [exact Hz|]. destruct (b =? c)%Z; [right; exact Hz|]. destruct Hz as [<-|Hz]; [left; reflexivity|right; apply IH, Hz].
Qed.
Lemma total_perm {A} (f : A -> Qc) l l' : Permutation l l' -> total f l = total f l'.
Proof. induction 1 as [|x l l' _ IH|x y l|l l' l'' _ IH1 _ IH2]; cbn [total fold_right]; unfold total in *; [reflexivity|rewrite IH; reflexivity|ring|congruence]. Qed.
Lemma slope_perm v w : Permutation v w -> slope v = slope w.
Proof. intros P. unfold slope. cbv zeta. rewrite !(fun f => total_perm f _ _ P). reflexivity. Qed.
Lemma separated_perm v w : Permutation v w -> separated v -> separated w.
Proof.
  intros P S g perp. rewrite <- (slope_perm _ _ P). intros i j a b Eg Ei Ej Q.
  specialize (S g perp). set (f := along g perp) in *.
  assert (Nv : NoDup (map f v)).
  { apply NoDup_nth_error. intros x y Hx E. rewrite map_length in Hx. rewrite !nth_error_map in E.
    destruct (nth_error v x) as [c|] eqn:Ex; [|apply nth_error_None in Ex; lia]. destruct (nth_error v y) as [d|] eqn:Ey; [|discriminate].
    injection E as E. exact (S x y c d Eg Ex Ey E). }
  apply (Permutation_NoDup (Permutation_map f P)) in Nv. rewrite NoDup_nth_error in Nv. apply Nv.
  - rewrite map_length. apply nth_error_Some. congruence.
  - rewrite !nth_error_map, Ei, Ej. cbn. f_equal. exact Q.
Qed.
Lemma find_order_perm v perp w : find_order v perp = Ok w -> incl w v /\ (v <> [] -> w <> []) /\ (separated v -> Permutation w v) /\ (NoDup v -> NoDup w).
Proof.
  intros E. destruct (find_order_cases v perp) as [(g & C & S & E')|E']; rewrite E' in E; [|discriminate]. injection E as <-.
  assert (I : incl (map snd (qf hit (along g perp) v)) v).
  { intros h H. apply qf_in in H. destruct H as (l1 & l2 & -> & _). apply in_app_iff. right; left; reflexivity. }
  split; [exact I|]. split; [|split].
  - intros N. destruct v as [|a r]; [contradiction|]. destruct (qf_inv hit (along g perp) (a :: r)) as (_ & K & _).
    intros X. apply map_eq_nil in X. rewrite X in K. specialize (K (along g perp a)). destruct (proj2 K). left; reflexivity.
  - intros Sp. apply qf_perm. intros i j a b. apply Sp, S.
  - intros _. pose proof (qf_sorted hit (along g perp) v) as Ss. clear -Ss. induction Ss as [|x l Ss IH F]; constructor; [|exact IH].
    intros H. rewrite Forall_forall in F. specialize (F x H). exact (Qclt_not_eq _ _ F eq_refl).
Qed.

(** what is kept of the hits of each plane *)
Section K.
Variable hs : list hit.
Definition kept (p : Z) (v : list hit) : Prop := incl v (hits_of p hs) /\ v <> [] /\ (separated (hits_of p hs) -> Permutation v (hits_of p hs)) /\ (NoDup hs -> NoDup v).
Definition good (m : hmap) : Prop := ordered m /\ (forall p, In p (keys m) <-> exists h, In h hs /\ hpl h = p) /\ forall p v, In (p, v) m -> kept p v.

Lemma kept_perm p v w : Permutation v w -> kept p v -> kept p w.
Proof.
  intros P (A & B & D & N). split; [intros h Hh; apply A; apply (Permutation_in _ (Permutation_sym P)), Hh|]. split.
  - intros ->. apply Permutation_sym, Permutation_nil in P. contradiction.
  - split; [intros S; rewrite <- P; apply D, S|]. intros X. apply (Permutation_NoDup P), N, X.
Qed.
Lemma kept_order p v perp w : find_order v perp = Ok w -> kept p v -> kept p w.
Proof.
  intros E (A & B & D & N). destruct (find_order_perm v perp w E) as (I & Ne & P & Nd). split; [intros h Hh; apply A, I, Hh|]. split; [apply Ne, B|].
  split; [|intros X; apply Nd, N, X]. intros S. pose proof (D S) as Pv. rewrite (P (separated_perm _ _ (Permutation_sym Pv) S)). exact Pv.
Qed.
Lemma good_mset p w m : good m -> In p (keys m) -> kept p w -> good (mset p w m).
Proof.
  intros (O & K & G) Hp Kw. split; [apply ordered_mset, O|]. split.
  - intros q. rewrite keys_mset, <- K. split; [intros [->|X]; auto|auto].
  - intros q v Hi. apply (mfind_in _ _ _ (ordered_mset p w m O)) in Hi. rewrite mfind_mset in Hi. destruct (Z.eqb_spec q p) as [->|].
    + injection Hi as <-. exact Kw.
    + apply G, (mfind_in _ _ _ O), Hi.
Qed.
Lemma good_in m p v : good m -> In (p, v) m -> In p (keys m). Proof. intros _ H. apply (in_map fst) in H. exact H. Qed.
Lemma good_re m m' : good m -> reoriented m m' -> good m'.
Proof.
  intros (O & K & G) R. assert (Ek : keys m' = keys m). { clear -R. induction R as [|a b l l' [E _] _ IH]; [reflexivity|]. unfold keys in *. cbn. rewrite E, IH. reflexivity. }
  split; [unfold ordered; rewrite Ek; exact O|]. split; [intros p; rewrite Ek; apply K|]. clear -R G. induction R as [|a b l l' [E D] R IH]; [intros p v []|].
  intros p v [->|Hi]; [|apply IH; [intros; apply G; right; assumption|exact Hi] ]. destruct a as [q u]. cbn in *. subst q.
  specialize (G p u (or_introl eq_refl)). destruct D as [-> | ->]; [exact G|apply (kept_perm p u); [apply Permutation_rev|exact G] ].
Qed.

Lemma group_good : good (group hs).
Proof.
  unfold group. assert (G : forall l m0 pre, ordered m0 -> (forall p, mvec p m0 = hits_of p pre) -> (forall p, In p (keys m0) <-> exists h, In h pre /\ hpl h = p) ->
    let m := fold_left (fun m h => mpush (hpl h) h m) l m0 in ordered m /\ (forall p, mvec p m = hits_of p (pre ++ l)) /\ (forall p, In p (keys m) <-> exists h, In h (pre ++ l) /\ hpl h = p)).
  { induction l as [|h l IH]; intros m0 pre O F K; cbn [fold_left]; [rewrite app_nil_r; auto|].
    replace (pre ++ h :: l) with ((pre ++ [h]) ++ l) by (rewrite <- app_assoc; reflexivity). apply IH.
    - apply ordered_mset, O.
    - intros p. rewrite mvec_mpush. unfold hits_of. rewrite filter_app. cbn [filter]. rewrite (Z.eqb_sym (hpl h) p).
      destruct (Z.eqb_spec p (hpl h)) as [->|]; [rewrite F; reflexivity|rewrite app_nil_r; apply F].
    - intros p. unfold mpush. rewrite keys_mset, K. split.
      + intros [->|(x & Hx & E)]; [exists h; split; [apply in_app_iff; right; left; reflexivity|reflexivity]|exists x; split; [apply in_app_iff; auto|exact E] ].
      + intros (x & Hx & E). apply in_app_iff in Hx. destruct Hx as [Hx|[<-|[] ] ]; [right; eauto|left; auto]. }
  destruct (G hs [] []) as (O & F & K); [constructor|reflexivity|intros p; split; [intros []|intros (h & [] & _)]|]. cbn [app] in *.
  split; [exact O|]. split; [exact K|]. intros p v Hi. pose proof (proj2 (mfind_in p v _ O) Hi) as Ei. assert (Ev : v = hits_of p hs) by (rewrite <- F; unfold mvec; rewrite Ei; reflexivity).
  subst v. split; [apply incl_refl|]. split; [|split; [reflexivity|intros N; apply NoDup_filter, N] ]. intros X. apply (in_map fst) in Hi. apply K in Hi. destruct Hi as (h & Hh & E).
  assert (Y : In h (hits_of p hs)) by (apply filter_In; split; [exact Hh|apply Z.eqb_eq, E]). rewrite X in Y. destruct Y.
Qed.

Lemma foreach_good {B} (l : list B) (body : hmap -> B -> outcome hmap) (P : B -> Prop) m m' :
  (forall m b m', P b -> good m -> body m b = Ok m' -> good m') -> (forall b, In b l -> P b) -> good m -> foreach l body m = Ok m' -> good m'.
Proof.
  intros H Hp. revert m. induction l as [|b l IH]; intros m G E; cbn [foreach] in E; [injection E as <-; exact G|].
  apply ob in E. destruct E as (m1 & E1 & E2). apply (IH (fun x Hx => Hp x (or_intror Hx)) m1); [|exact E2]. apply (H m b m1); auto. apply Hp. left; reflexivity.
Qed.

Lemma order_planes_good np rms gneg want m m' : good m -> order_planes np rms gneg want m = Ok m' -> good m'.
Proof.
  intros G E. unfold order_planes in E. apply ob in E. destruct E as ((m1 & pr) & E1 & E). cbv zeta in E. cbn [fst snd] in E.
  assert (G1 : good m1 /\ forall p, In p (keys m1) -> In p (keys m)).
  { assert (X : forall (l : list (Z * list hit)) (s s' : hmap * zmap Qc), (forall e, In e l -> In e m) -> good (fst s) -> keys (fst s) = keys m ->
      foreach l (fun (r : hmap * zmap Qc) (e : Z * list hit) => if negb (want =? fst e)%Z && negb (want =? -1)%Z then Ok r
        else do o <- find_order (snd e) false; Ok (mset (fst e) o (fst r), mset (fst e) (rms o) (snd r))) s = Ok s' -> good (fst s') /\ keys (fst s') = keys m).
    { induction l as [|e l IH]; intros s s' Hl Gs Ks Es; cbn [foreach] in Es; [injection Es as <-; auto|].
      apply ob in Es. destruct Es as (s1 & F1 & F2). assert (He : In e m) by (apply Hl; left; reflexivity).
      destruct (negb (want =? fst e)%Z && negb (want =? -1)%Z); [injection F1 as <-; apply (IH s s'); auto; intros; apply Hl; right; assumption|].
      apply ob in F1. destruct F1 as (o & Fo & F1). injection F1 as <-. destruct e as [p v]. cbn [fst snd] in *.
      assert (Hk : In p (keys (fst s))) by (rewrite Ks; apply (in_map fst) in He; exact He).
      apply (IH (mset p o (fst s), mset p (rms o) (snd s)) s'); [intros; apply Hl; right; assumption| | |exact F2]; cbn [fst].
      - apply good_mset; [exact Gs|exact Hk|]. apply (kept_order p v false o Fo). apply G, He.
      - rewrite keys_mset_same; [exact Ks|apply Gs|exact Hk]. }
    destruct (X m (m, []) (m1, pr) (fun e He => He) G eq_refl E1) as [A B]. split; [exact A|]. intros p Hp. cbn [fst] in B. rewrite B in Hp. exact Hp. }
  destruct G1 as [G1 _]. apply ob in E. destruct E as (m2 & E2 & E). injection E as <-.
  assert (G2 : good m2 /\ keys m2 = keys m1).
  { clear G E1.
    assert (X : forall (l : list (Z * list hit)) (m0 m' : hmap), (forall e, In e l -> In e m1) -> good m0 -> keys m0 = keys m1 -> foreach l (fun (m : hmap) (e : Z * list hit) =>
       do x <- mat (fst e) pr; match flat_map (fun p => match mfind p pr with Some y => [y] | None => [] end) (filter (fun p => negb (p =? fst e)%Z) (map Z.of_nat (seq 0 np))) with
       | [] => Ok m | _ => if qc_lt (qsuml (flat_map (fun p => match mfind p pr with Some y => [y] | None => [] end) (filter (fun p => negb (p =? fst e)%Z) (map Z.of_nat (seq 0 np)))) / qn (length (flat_map (fun p => match mfind p pr with Some y => [y] | None => [] end) (filter (fun p => negb (p =? fst e)%Z) (map Z.of_nat (seq 0 np))))) * Q2Qc 2)%Qc x
         then do o <- find_order (snd e) true; Ok (mset (fst e) o m) else Ok m end) m0 = Ok m' -> good m' /\ keys m' = keys m1).
    { induction l as [|e l IH]; intros m0 m' Hl Gm Km Em; cbn [foreach] in Em; [injection Em as <-; auto|].
      apply ob in Em. destruct Em as (m3 & F1 & F2). apply ob in F1. destruct F1 as (x & Fx & F1). assert (He : In e m1) by (apply Hl; left; reflexivity).
      assert (Z : good m3 /\ keys m3 = keys m1).
      { match type of F1 with match ?u with [] => _ | _ => _ end = _ => destruct u; [injection F1 as <-; auto|] end.
        match type of F1 with (if ?u then _ else _) = _ => destruct u; [|injection F1 as <-; auto] end.
        apply ob in F1. destruct F1 as (o & Fo & F1). injection F1 as <-. destruct e as [p v]. cbn [fst snd] in *.
        assert (Hk : In p (keys m0)) by (rewrite Km; apply (in_map fst) in He; exact He). split.
        - apply good_mset; [exact Gm|exact Hk|]. apply (kept_order p v true o Fo). apply G1, He.
        - rewrite keys_mset_same; [exact Km|apply Gm|exact Hk]. }
      apply (IH m3 m'); [intros; apply Hl; right; assumption|apply Z|apply Z|exact F2]. }
    apply (X m1 m1 m2 (fun e He => He) G1 eq_refl E2). }
  apply (good_re m2); [apply G2|]. clear. induction m2 as [|e m IH]; cbn [map]; constructor; [|exact IH]. cbn [fst snd]. split; [reflexivity|]. destruct (gneg (snd e)); auto.
Qed.

Lemma naughty_perm fuel : forall i e v acc, Permutation (fst (naughty fuel i e v acc) ++ snd (naughty fuel i e v acc)) (v ++ acc).
Proof.
  induction fuel as [|f IH]; intros i e v acc; cbn [naughty]; [reflexivity|]. destruct (i =? e); [reflexivity|].
  destruct (nth_error v i) as [h|] eqn:E; [|reflexivity]. rewrite IH. apply nth_error_split in E. destruct E as (l1 & l2 & -> & <-).
  rewrite firstn_app, firstn_all, Nat.sub_diag. cbn [firstn]. rewrite app_nil_r.
  replace (skipn (S (length l1)) (l1 ++ h :: l2)) with l2. 
  - rewrite <- !app_assoc. apply Permutation_app_head. rewrite app_assoc. rewrite Permutation_app_comm. cbn [app]. reflexivity.
  - rewrite skipn_app, skipn_all2 by lia. replace (S (length l1) - length l1) with 1 by lia. reflexivity.
Qed.
Lemma isolated_cases np m m' : isolated np m = Ok m' -> m' = m \/ exists p v w, mfind p m = Some v /\ Permutation v w /\ m' = mset p w m.
Proof.
  unfold isolated. intros E. apply ob in E. destruct E as (f & _ & E).
  destruct (negb (length f =? 2)); [injection E as <-; auto|]. cbv zeta in E. apply ob in E. destruct E as (v & Ev & E).
  destruct (length v <? 3); [injection E as <-; auto|].
  match type of E with match ?u with [] => _ | _ => _ end = _ => destruct u as [|o os]; [injection E as <-; auto|] end.
  apply ob in E. destruct E as (h0 & _ & E). destruct (2 <? leading (htp h0) v); [injection E as <-; auto|].
  match type of E with (if ?u then _ else _) = _ => destruct u; [injection E as <-; auto|] end.
  apply ob in E. destruct E as (se & _ & E). destruct (tpcs se) as [|[t c] [|? ?] ]; try (injection E as <-; auto).
  apply ob in E. destruct E as (h & _ & E). destruct (t =? Z.of_nat (htp h))%Z; [|injection E as <-; auto]. injection E as <-. right.
  unfold mat in Ev. match type of Ev with match mfind ?p m with _ => _ end = _ => exists p; destruct (mfind p m) as [v'|]; [|discriminate] end.
  injection Ev as <-. exists v'. eexists. split; [reflexivity|]. split; [|reflexivity]. symmetry. rewrite naughty_perm, app_nil_r. reflexivity.
Qed.
Lemma isolated_good np m m' : good m -> isolated np m = Ok m' -> good m'.
Proof.
  intros G E. apply isolated_cases in E. destruct E as [->|(p & v & w & Ep & P & ->)]; [exact G|].
  apply mfind_in in Ep; [|apply G]. apply good_mset; [exact G|apply (in_map fst) in Ep; exact Ep|]. apply (kept_perm p v w P). apply G, Ep.
Qed.
End K.

(* ------------------------------------------------------------ orientations *)
Lemma wset_len {A} k (v : A) m : length (wset k v m) <= S (length m).
Proof. induction m as [|[a x] m IH]; cbn [wset]; [cbn; lia|]. destruct (wless k a); [cbn; lia|]. destruct (wless a k); cbn [length]; lia. Qed.
Lemma wset_in k v (m : list (option Qc * Z)) x : In x (map snd (wset k v m)) -> x = v \/ In x (map snd m).
Proof.
  induction m as [|[a y] m IH]; cbn [wset]; [intros [<-|[] ]; auto|]. destruct (wless k a); [intros [<-|H]; [auto|right; exact H]|].
  destruct (wless a k); cbn [map snd In]; [intros [<-|H]; [auto|apply IH in H; tauto]|intros [<-|H]; auto].
Qed.
Lemma wset_full k v (m : list (option Qc * Z)) : length (wset k v m) = S (length m) -> Permutation (map snd (wset k v m)) (v :: map snd m).
Proof.
  induction m as [|[a y] m IH]; cbn [wset]; [reflexivity|]. destruct (wless k a); [reflexivity|].
  destruct (wless a k); cbn [map snd length]; [|intros; lia]. intros E. rewrite IH by lia. apply perm_swap.
Qed.
Lemma wire_widths_keys np m ws : wire_widths np m = Ok ws -> length ws = length m -> Permutation (map snd ws) (keys m).
Proof.
  unfold wire_widths. intros E. apply ob in E. destruct E as (ls & E1 & E2).
  assert (K : map fst ls = keys m).
  { assert (X : forall l acc ls, foreach l (fun ls e => do w <- wlen (snd e); Ok (ls ++ [(fst e, w)])) acc = Ok ls -> map fst ls = map fst acc ++ keys l).
    { induction l as [|e l IH]; intros acc r E; cbn [foreach] in E; [injection E as <-; cbn; rewrite app_nil_r; reflexivity|].
      apply ob in E. destruct E as (a1 & F1 & F2). apply ob in F1. destruct F1 as (w & _ & F1). injection F1 as <-.
      apply IH in F2. rewrite F2, map_app. cbn [map fst]. rewrite <- app_assoc. reflexivity. }
    apply (X m [] ls E1). }
  assert (Y : forall l acc r, foreach l (fun ws e =>
    let quad := fold_left (fun q p => match mfind p ls with
                                      | Some w => if (p =? fst e)%Z then q else (q + w * w)%Z
                                      | None => q end) (map Z.of_nat (seq 0 np)) 0%Z in
    if (quad =? 0)%Z
    then if (snd e =? 0)%Z then Undef else Ok (wset None (fst e) ws)
    else Ok (wset (Some (Q2Qc (inject_Z (snd e * snd e)) / Q2Qc (inject_Z quad))%Qc) (fst e) ws)) acc = Ok r ->
    length r <= length acc + length l /\ (length r = length acc + length l -> Permutation (map snd r) (map snd acc ++ map fst l))).
  { clear. induction l as [|e l IH]; intros acc r E; cbn [foreach] in E; [injection E as <-; cbn; rewrite app_nil_r; split; [lia|reflexivity]|].
    apply ob in E. destruct E as (a1 & F1 & F2). apply IH in F2. destruct F2 as [L P].
    assert (Z : exists k, a1 = wset k (fst e) acc).
    { cbv zeta in F1. match type of F1 with (if ?c then _ else _) = _ => destruct c end; [match type of F1 with (if ?c then _ else _) = _ => destruct c end; [discriminate|] |]; injection F1 as <-; eauto. }
    destruct Z as (k & ->). pose proof (wset_len k (fst e) acc). cbn [length map]. split; [lia|]. intros Q.
    assert (LL : length (wset k (fst e) acc) = S (length acc)) by lia. rewrite P by lia. rewrite (wset_full _ _ _ LL). cbn [app]. apply Permutation_middle. }
  intros L. destruct (Y ls [] ws E2) as [_ P]. cbn [length map app] in P. rewrite <- K. apply P. rewrite L.
  rewrite <- (map_length fst ls), K. unfold keys. rewrite map_length. reflexivity.
Qed.

Definition dirs (m : hmap) (bs : list bool) : hmap := map (fun x : Z * list hit * bool => (fst (fst x), if snd x then rev (snd (fst x)) else snd (fst x))) (List.combine m bs).
Lemma re_dirs m m' : reoriented m m' -> exists bs, length bs = length m /\ m' = dirs m bs.
Proof.
  induction 1 as [|a b l l' [E D] _ (bs & L & ->)]; [exists []; auto|]. destruct a as [p u], b as [q w]. cbn in E, D. subst q.
  destruct D as [-> | ->]; [exists (false :: bs)|exists (true :: bs)]; cbn; rewrite L; auto.
Qed.
Lemma perm2 (a b : Z) l : Permutation l [a; b] -> l = [a; b] \/ l = [b; a].
Proof. intros P. symmetry in P. apply Permutation_length_2_inv in P. exact P. Qed.
Lemma perm3 (a b c : Z) l : Permutation l [a; b; c] -> In l [[a; b; c]; [a; c; b]; [b; a; c]; [b; c; a]; [c; a; b]; [c; b; a] ].
Proof.
  intros P. destruct l as [|x l]; [apply Permutation_length in P; discriminate|].
  assert (H : In x [a; b; c]) by (apply (Permutation_in _ P); left; reflexivity). destruct H as [<-|[<-|[<-|[] ] ] ].
  - apply Permutation_cons_inv in P. apply perm2 in P. destruct P as [-> | ->]; cbn; auto.
  - rewrite (perm_swap b a [c]) in P. apply Permutation_cons_inv in P. apply perm2 in P. destruct P as [-> | ->]; cbn; auto 10.
  - assert (P' : Permutation (c :: l) (c :: [a; b])) by (rewrite P; apply (Permutation_app_comm [a; b] [c])). apply Permutation_cons_inv in P'. apply perm2 in P'. destruct P' as [-> | ->]; cbn; auto 10.
Qed.
(** every orientation of two planes, or of planes 0, 1, 2, is tried when each plane has its own width *)
Lemma all2 a u b v ws bs : (a < b)%Z -> Permutation ws [a; b] -> length bs = 2 ->
  exists i, i < 4 /\ orient [(a, u); (b, v)] (nth i (permutations [a; b] ws) []) = dirs [(a, u); (b, v)] bs.
Proof.
  intros L P E. destruct bs as [|x [|y [|? ?] ] ]; try discriminate. clear E.
  assert (T : (a =? b)%Z = false /\ (b =? a)%Z = false /\ (b <? a)%Z = false /\ (a <? b)%Z = true /\ (a =? a)%Z = true /\ (b =? b)%Z = true /\ (a <? a)%Z = false /\ (b <? b)%Z = false).
  { repeat split; rewrite ?Z.eqb_neq, ?Z.eqb_eq, ?Z.ltb_ge, ?Z.ltb_lt; lia. }
  destruct T as (T1 & T2 & T3 & T4 & T5 & T6 & T7 & T8).
  apply perm2 in P. destruct P as [-> | ->]; destruct x, y;
  first [exists 0; split; [lia|]; unfold permutations, perm1, add_perm, same_perm, orient, dirs; repeat (cbn [fold_left rev app map mset mfind nth existsb forallb List.combine fst snd length negb Nat.eqb andb orb Bool.eqb]; rewrite ?T1, ?T2, ?T3, ?T4, ?T5, ?T6, ?T7, ?T8); reflexivity
       |exists 1; split; [lia|]; unfold permutations, perm1, add_perm, same_perm, orient, dirs; repeat (cbn [fold_left rev app map mset mfind nth existsb forallb List.combine fst snd length negb Nat.eqb andb orb Bool.eqb]; rewrite ?T1, ?T2, ?T3, ?T4, ?T5, ?T6, ?T7, ?T8); reflexivity
       |exists 2; split; [lia|]; unfold permutations, perm1, add_perm, same_perm, orient, dirs; repeat (cbn [fold_left rev app map mset mfind nth existsb forallb List.combine fst snd length negb Nat.eqb andb orb Bool.eqb]; rewrite ?T1, ?T2, ?T3, ?T4, ?T5, ?T6, ?T7, ?T8); reflexivity
       |exists 3; split; [lia|]; unfold permutations, perm1, add_perm, same_perm, orient, dirs; repeat (cbn [fold_left rev app map mset mfind nth existsb forallb List.combine fst snd length negb Nat.eqb andb orb Bool.eqb]; rewrite ?T1, ?T2, ?T3, ?T4, ?T5, ?T6, ?T7, ?T8); reflexivity].
Qed.
Lemma all3 u v w ws bs : Permutation ws [0; 1; 2]%Z -> length bs = 3 ->
  exists i, i < 8 /\ orient [(0%Z, u); (1%Z, v); (2%Z, w)] (nth i (permutations [0; 1; 2]%Z ws) []) = dirs [(0%Z, u); (1%Z, v); (2%Z, w)] bs.
Proof.
  intros P E. destruct bs as [|x [|y [|z [|? ?] ] ] ]; try discriminate. clear E. apply perm3 in P.
  repeat (destruct P as [<-|P]); [..|destruct P]; destruct x, y, z;
  first [exists 0; split; [lia|reflexivity]|exists 1; split; [lia|reflexivity]|exists 2; split; [lia|reflexivity]|exists 3; split; [lia|reflexivity]
        |exists 4; split; [lia|reflexivity]|exists 5; split; [lia|reflexivity]|exists 6; split; [lia|reflexivity]|exists 7; split; [lia|reflexivity] ].
Qed.
Section O.
Variables (ok2 : hit -> hit -> bool) (ok3 : Z -> hit -> hit -> hit -> bool).
Notation chk := (check_hits ok2 ok3).
Lemma re_refl m : reoriented m m. Proof. induction m as [|e m IH]; constructor; [auto|exact IH]. Qed.
Lemma orient_re m p : reoriented m (orient m p).
Proof. unfold orient, reoriented. induction m as [|e m IH]; cbn [map]; constructor; [|exact IH]. cbn [fst snd]. split; [reflexivity|]. match goal with |- context [if ?b then _ else _] => destruct b end; auto. Qed.
Lemma search_re fuel : forall n ps m0 m r, reoriented m0 m -> search ok2 ok3 fuel n ps m0 m = Ok r -> reoriented m0 r.
Proof.
  induction fuel as [|f IH]; intros n ps m0 m r R E; cbn [search] in E; apply ob in E; destruct E as (b & _ & E).
  - destruct b; injection E as <-; exact R.
  - destruct b; [injection E as <-; exact R|]. apply IH in E; [exact E|apply orient_re].
Qed.

Lemma search_fail fuel : forall n ps m0 m r, search ok2 ok3 fuel n ps m0 m = Ok r -> chk r = Ok true \/
  (chk m = Ok false \/ fuel = 0 /\ m = r) /\ forall i, i < fuel -> let x := orient m0 (nth (n + i) ps []) in chk x = Ok false \/ x = r.
Proof.
  induction fuel as [|f IH]; intros n ps m0 m r E; cbn [search] in E; apply ob in E; destruct E as (b & Eb & E).
  - destruct b; injection E as <-; auto. right. split; [auto|]. intros i Hi; lia.
  - destruct b; [injection E as <-; auto|]. apply IH in E. destruct E as [E|[E1 E2] ]; [auto|]. right. split; [auto|].
    intros [|i] Hi; cbv zeta; [rewrite Nat.add_0_r; destruct E1 as [E1|[_ E1] ]; auto|]. specialize (E2 i ltac:(lia)). cbv zeta in E2. rewrite Nat.add_succ_r. exact E2.
Qed.
End O.

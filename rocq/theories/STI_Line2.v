(** In-line events: the walks *)
From Coq Require Import QArith Qcanon Permutation.
From Verif Require Import Base QcUtil Solver_Model STI_Model STI_Spec STI_Find STI_Walk STI_Line TJ_Merge.
Import STI_Model.
Local Open Scope nat_scope.

Definition hop := (tend * nat * tend)%type.
Definition node (h : hop) : nat := snd (fst h).
Definition ends (h : hop) : tend * tend := (fst (fst h), snd h).
Definition sdne (h : hop) : tend * tend := (snd h, fst (fst h)).

(* ---------------------------------------------------------------- composites whose joints are matches *)
Section Joined.
Variables (c : cfg) (ts : list trk).
Definition joined (cm : comp) : Prop :=
  length (snd cm) + 1 = length (fst cm) /\
  (forall k a b x, nth_error (fst cm) k = Some a -> nth_error (fst cm) (Datatypes.S k) = Some b -> nth_error (snd cm) k = Some x -> touches c ts a (fst x) b (snd x)) /\
  (forall k x y, nth_error (snd cm) k = Some x -> nth_error (snd cm) (Datatypes.S k) = Some y -> snd x <> fst y).

Lemma nth_combine {A B} (l : list A) : forall (m : list B) k a b, nth_error (combine l m) k = Some (a, b) -> nth_error l k = Some a /\ nth_error m k = Some b.
Proof. induction l as [|x l IH]; intros [|y m] [|k] a b X; cbn in *; try discriminate; [injection X as <- <-; auto|apply IH; exact X]. Qed.
Lemma nth_map_seq_b {B} (f : nat -> B) n k b : nth_error (map f (seq 0 n)) k = Some b -> k < n /\ b = f k.
Proof.
  intros X. assert (L : k < n) by (assert (k < length (map f (seq 0 n))) by (apply nth_error_Some; congruence); rewrite map_length, seq_length in *; assumption). split; [exact L|].
  rewrite nth_error_map in X. rewrite (nth_error_nth' (seq 0 n) 0) in X by (rewrite seq_length; exact L). rewrite seq_nth in X by exact L. cbn in X. congruence.
Qed.
Lemma joined_smooth cm : joined cm -> smooth c ts (oriented cm).
Proof.
  intros (L & T & D) k i r j r' X Y. unfold oriented in X, Y. apply nth_combine in X as (X1 & X2). apply nth_combine in Y as (Y1 & Y2). apply nth_map_seq_b in X2 as (Lk & ->). apply nth_map_seq_b in Y2 as (Lk' & ->).
  left. destruct (nth_error (snd cm) k) as [x|] eqn:E; [|apply nth_error_None in E; lia]. specialize (T k i j x X1 Y1 E).
  assert (R : entered (bw (snd cm) (Datatypes.S k)) = snd x).
  { unfold bw. destruct (Nat.eqb_spec (length (snd cm)) 0) as [Z|Z]; [lia|]. rewrite (nth_error_nth _ _ _ E). destruct (snd x); reflexivity. }
  assert (Q : left_by (bw (snd cm) k) = fst x).
  { unfold bw. destruct (Nat.eqb_spec (length (snd cm)) 0) as [Z|Z]; [lia|]. destruct k as [|k]; [rewrite (nth_error_nth _ _ _ E); destruct (fst x); reflexivity|].
    destruct (nth_error (snd cm) k) as [y|] eqn:E'; [|apply nth_error_None in E'; lia]. rewrite (nth_error_nth _ _ _ E'). specialize (D k y x E' E). destruct (snd y), (fst x); try reflexivity; contradiction. }
  rewrite R, Q. exact T.
Qed.
Lemma nth_rev {A} (l : list A) k x : nth_error (rev l) k = Some x -> k < length l /\ nth_error l (length l - 1 - k) = Some x.
Proof.
  intros X. assert (L : k < length l) by (rewrite <- rev_length; apply nth_error_Some; congruence). split; [exact L|].
  apply nth_error_rev' in X. rewrite rev_length, rev_involutive in X. exact X.
Qed.
Definition turned (cm : comp) : comp := (rev (fst cm), rev (map (fun x : tend * tend => (snd x, fst x)) (snd cm))).
Lemma joined_rev cm : joined cm -> joined (turned cm).
Proof.
  intros (L & T & D). unfold turned, joined. cbn [fst snd]. rewrite !rev_length, map_length. split; [exact L|]. split.
  - intros k a b x X Y Z. apply nth_rev in X as (L1 & X). apply nth_rev in Y as (L2 & Y). apply nth_rev in Z as (L3 & Z). rewrite map_length in *. rewrite nth_error_map in Z.
    destruct (nth_error (snd cm) (length (snd cm) - 1 - k)) as [y|] eqn:E; [|discriminate]. injection Z as <-. cbn [fst snd]. apply touches_sym.
    apply (T (length (snd cm) - 1 - k) b a y); [rewrite <- Y; f_equal; lia|rewrite <- X; f_equal; lia|exact E].
  - intros k x y X Y. apply nth_rev in X as (L1 & X). apply nth_rev in Y as (L2 & Y). rewrite map_length in *. rewrite nth_error_map in X, Y.
    destruct (nth_error (snd cm) (length (snd cm) - 1 - k)) as [a|] eqn:Ea; [|discriminate]. destruct (nth_error (snd cm) (length (snd cm) - 1 - Datatypes.S k)) as [b|] eqn:Eb; [|discriminate].
    injection X as <-. injection Y as <-. cbn [fst snd]. intros Z. apply (D (length (snd cm) - 1 - Datatypes.S k) b a Eb); [rewrite <- Ea; f_equal; lia|congruence].
Qed.
End Joined.

(* ---------------------------------------------------------------- paths *)
Section Paths.
Variables (c : cfg) (ts : list trk) (fh ft : list link).
Hypotheses (Il : in_line c ts) (Hh : lines c ts (length ts) HD fh) (Ht : lines c ts (length ts) TL ft).

Inductive up : nat -> list hop -> Prop :=
  | up_end i : (forall e j f, i < j -> ~ touches c ts i e j f) -> up i []
  | up_step i e j f l : i < j -> touches c ts i e j f -> up j l -> up i ((e, j, f) :: l).

Lemma links i : i < length ts -> exists h t, nth_error fh i = Some h /\ nth_error ft i = Some t /\
  ((h = None /\ t = None /\ forall e j f, i < j -> ~ touches c ts i e j f) \/
   (exists j f s, h = Some (f, j, s) /\ t = None /\ i < j /\ touches c ts i HD j f) \/ (exists j f s, h = None /\ t = Some (f, j, s) /\ i < j /\ touches c ts i TL j f)).
Proof.
  intros L. destruct Hh as (L1 & A1 & B1). destruct Ht as (L2 & A2 & B2). destruct (nth_error fh i) as [h|] eqn:Eh; [|apply nth_error_None in Eh; lia]. destruct (nth_error ft i) as [t|] eqn:Et; [|apply nth_error_None in Et; lia].
  exists h, t. split; [reflexivity|]. split; [reflexivity|]. destruct Il as (U & _). destruct h as [((f, j), s)|].
  - right; left. exists j, f, s. destruct (A1 _ _ _ _ Eh) as (Lj & X). split; [reflexivity|]. split; [|auto]. destruct t as [((f', j'), s')|]; [|reflexivity]. destruct (A2 _ _ _ _ Et) as (Lj' & X'). specialize (U i HD j f TL j' f' Lj Lj' X X'). discriminate.
  - destruct t as [((f, j), s)|]; [right; right; exists j, f, s; destruct (A2 _ _ _ _ Et); auto|]. left. split; [reflexivity|]. split; [reflexivity|]. intros e j f Lj X. destruct e.
    + destruct (B1 i j f L Lj X) as (s & Y). congruence.
    + destruct (B2 i j f L Lj X) as (s & Y). congruence.
Qed.
Lemma up_ex i : i < length ts -> exists l, up i l.
Proof.
  assert (G : forall m i, length ts - i < m -> i < length ts -> exists l, up i l).
  { induction m as [|m IH]; intros k B L; [lia|]. destruct (links k L) as (h & t & _ & _ & [(_ & _ & N)|[(j & f & s & _ & _ & Lj & X)|(j & f & s & _ & _ & Lj & X)]]).
    - exists []. constructor. exact N.
    - destruct (IH j) as (l & U); [lia|apply (touches_lt _ _ _ _ _ _ X)|]. exists ((HD, j, f) :: l). constructor; assumption.
    - destruct (IH j) as (l & U); [lia|apply (touches_lt _ _ _ _ _ _ X)|]. exists ((TL, j, f) :: l). constructor; assumption. }
  intros L. apply (G (Datatypes.S (length ts)) i); lia.
Qed.
Lemma up_lt i l : up i l -> forall x, In x (map node l) -> i < x < length ts.
Proof.
  induction 1 as [i N|i e j f l L X U IH]; intros x; cbn; [intros []|]. destruct (touches_lt _ _ _ _ _ _ X). intros [<-|I]; [cbn; lia|]. apply IH in I. lia.
Qed.
Lemma up_nodup i l : up i l -> NoDup (i :: map node l).
Proof.
  induction 1 as [i N|i e j f l L X U IH]; [constructor; [intros []|constructor]|]. cbn [map]. constructor; [|exact IH]. intros [Z|Z]; [cbn in Z; lia|]. apply (up_lt j l U) in Z. lia.
Qed.
Lemma up_joined i l : up i l -> joined c ts (i :: map node l, map ends l).
Proof.
  induction 1 as [i N|i e j f l L X U IH].
  - split; [reflexivity|]. split; [intros [|k] a b x _ _ Z; discriminate|intros [|k] x y Z; discriminate].
  - destruct IH as (L1 & T & D). cbn [fst snd map] in *. split; [cbn [length] in *; cbn [fst snd length]; lia|]. split.
    + intros [|k] a b x; cbn [fst snd nth_error]; intros A B Z; [injection A as <-; injection B as <-; injection Z as <-; exact X|]. apply (T k); assumption.
    + intros [|k] x y; cbn [fst snd nth_error]; intros A B; [|apply (D k); assumption]. injection A as <-. destruct l as [|((e', j'), f') l]; [discriminate|]. cbn in B. injection B as <-. cbn. intros ->.
      inversion U; subst. destruct Il as (_ & _ & W). eapply (W i e j e' j' f'); eassumption.
Qed.
(** each match of a track on the path is a joint of the path *)
Lemma up_next i l : up i l -> forall x e y f, In x (i :: map node l) -> x < y -> touches c ts x e y f -> exists k, nth_error (i :: map node l) k = Some x /\ nth_error (i :: map node l) (Datatypes.S k) = Some y.
Proof.
  induction 1 as [i N|i e0 j f0 l L X U IH]; intros x e y f I Lxy T.
  - destruct I as [<-|[]]. destruct (N e y f Lxy T).
  - cbn [map] in *. destruct I as [<-|I].
    + destruct Il as (Uq & _). specialize (Uq i e0 j f0 e y f L Lxy X T). injection Uq as -> -> ->. exists 0. split; reflexivity.
    + destruct (IH x e y f I Lxy T) as (k & A & B). exists (Datatypes.S k). split; [exact A|exact B].
Qed.
Lemma up_prev i l : up i l -> forall x e y f, In y (map node l) -> x < y -> touches c ts x e y f -> In x (i :: map node l).
Proof.
  induction 1 as [i N|i e0 j f0 l L X U IH]; intros x e y f I Lxy T; [destruct I|]. cbn [map] in *. destruct I as [<-|I].
  - cbn in *. destruct Il as (_ & Uq & _). specialize (Uq i e0 j f0 x e f L Lxy X T). injection Uq as -> _ _. auto.
  - right. apply (IH x e y f I Lxy T).
Qed.

(** the walk up a path *)
Definition ext (front : bool) (cm : comp) (l : list hop) : comp :=
  if front then (rev (map node l) ++ fst cm, rev (map sdne l) ++ snd cm) else (fst cm ++ map node l, snd cm ++ map ends l).
Lemma ext_cons front cm h l : ext front (if front then (node h :: fst cm, sdne h :: snd cm) else (fst cm ++ [node h], snd cm ++ [ends h])) l = ext front cm (h :: l).
Proof. unfold ext. destruct front; cbn [fst snd map rev]; rewrite <- !app_assoc; reflexivity. Qed.
Lemma chain_up fuel : forall front ii walk sh st (cm : comp) done l, ii <= walk -> walk < length ts -> length ts - walk < fuel -> length done = length ts -> up walk l ->
  (walk = ii -> nth_error fh ii = Some sh /\ nth_error ft ii = Some st) ->
  exists done', chain fuel front fh ft ii walk sh st cm done = Ok (ext front cm l, done') /\ length done' = length ts /\
    (forall x, nth_error done' x = Some true <-> nth_error done x = Some true \/ In x (map node l) \/ (l = [] /\ x = walk)).
Proof.
  induction fuel as [|fuel IH]; intros front ii walk sh st cm done l W Wn F Ld U Hs; [lia|]. cbn [chain].
  destruct (links walk Wn) as (h & t & Eh & Et & K).
  assert (G : (if walk =? ii then Ok (sh, st) else do a <- at_ fh walk; do b <- at_ ft walk; Ok (a, b)) = Ok (h, t)).
  { destruct (Nat.eqb_spec walk ii) as [->|D]; [destruct (Hs eq_refl); congruence|]. unfold at_. rewrite Eh. cbn [obind]. rewrite Et. reflexivity. }
  rewrite G. cbn [obind].
  assert (Next : forall e j f, walk < j -> touches c ts walk e j f -> forall cm1, cm1 = (if front then (j :: fst cm, (f, e) :: snd cm) else (fst cm ++ [j], snd cm ++ [(e, f)])) ->
    exists done', chain fuel front fh ft ii j h t cm1 (upd done j true) = Ok (ext front cm l, done') /\ length done' = length ts /\ (forall x, nth_error done' x = Some true <-> nth_error done x = Some true \/ In x (map node l) \/ (l = [] /\ x = walk))).
  { intros e j f Lj X cm1 E1. destruct (touches_lt _ _ _ _ _ _ X) as (_ & Lj2). inversion U as [? N|? e' j' f' l' Lj' X' U']; subst; [destruct (N e j f Lj X)|].
    destruct Il as (Uq & _). specialize (Uq walk e j f e' j' f' Lj Lj' X X'). injection Uq as <- <- <-.
    destruct (IH front ii j h t (if front then (j :: fst cm, (f, e) :: snd cm) else (fst cm ++ [j], snd cm ++ [(e, f)])) (upd done j true) l') as (d' & E & Ld' & M); [lia|exact Lj2|lia|rewrite upd_length; exact Ld|exact U'|lia|].
    exists d'. split; [refine (eq_trans E _); exact (f_equal (fun z : comp => Ok (z, d')) (ext_cons front cm (e, j, f) l'))|]. split; [exact Ld'|]. intros x. rewrite M, nth_error_upd, Ld, (proj2 (Nat.ltb_lt _ _) Lj2), andb_true_r. cbn [map In node fst snd].
    destruct (Nat.eqb_spec x j) as [->|D]; [split; intros; [right; left; left; reflexivity|left; reflexivity]|].
    split; [intros [A|[A|(_ & A)]]; [auto|auto|contradiction]|]. intros [A|[[A|A]|(A & _)]]; [auto|congruence|auto|discriminate]. }
  unfold set_at. destruct K as [(-> & -> & N)|[(j & f & s & -> & -> & Lj & X)|(j & f & s & -> & -> & Lj & X)]]; cbn [grow].
  - rewrite Ld, (proj2 (Nat.ltb_lt _ _) Wn). cbn [obind]. inversion U as [|? e' j' f' l' Lj' X' U']; subst; [|destruct (N _ _ _ Lj' X')].
    exists (upd done walk true). split; [unfold ext; destruct cm as (a, b), front; cbn; rewrite ?app_nil_r; reflexivity|]. split; [rewrite upd_length; exact Ld|].
    intros x. rewrite nth_error_upd, Ld, (proj2 (Nat.ltb_lt _ _) Wn), andb_true_r. destruct (Nat.eqb_spec x walk) as [->|D]; [split; auto|]. split; [auto|]. intros [A|[[]|(_ & A)]]; [exact A|contradiction].
  - destruct (touches_lt _ _ _ _ _ _ X) as (_ & Lj2). rewrite Ld, (proj2 (Nat.ltb_lt _ _) Lj2). cbn [obind]. apply (Next HD j f Lj X). destruct front; reflexivity.
  - destruct (touches_lt _ _ _ _ _ _ X) as (_ & Lj2). rewrite Ld, (proj2 (Nat.ltb_lt _ _) Lj2). cbn [obind]. apply (Next TL j f Lj X). destruct front; reflexivity.
Qed.
Lemma chain_idle fuel front ii cm done : ii < length ts -> length done = length ts -> chain (Datatypes.S fuel) front fh ft ii ii None None cm done = Ok (cm, upd done ii true).
Proof. intros L Ld. cbn [chain]. rewrite Nat.eqb_refl. cbn [obind grow]. unfold set_at. rewrite Ld, (proj2 (Nat.ltb_lt _ _) L). reflexivity. Qed.
Lemma dedup_same fuel : forall i (cm : comp), NoDup (fst cm) -> dedup fuel i cm = Ok cm.
Proof.
  induction fuel as [|fuel IH]; intros i cm N; cbn [dedup]; [reflexivity|]. destruct (nth_error (fst cm) i) as [x|] eqn:E; [|reflexivity].
  destruct (pos x (skipn (i + 1) (fst cm))) as [p|] eqn:Ep; [|apply IH; exact N]. exfalso. apply pos_some in Ep as (Ep & _). apply nth_error_In in Ep.
  apply nth_error_split in E as (l1 & l2 & E & Li). rewrite E in N, Ep. assert (Sk : skipn (i + 1) (l1 ++ x :: l2) = l2).
  { rewrite skipn_app. rewrite (skipn_all2 l1) by lia. replace (i + 1 - length l1) with 1 by lia. reflexivity. }
  rewrite Sk in Ep. apply NoDup_remove_2 in N. apply N, in_or_app. auto.
Qed.
(** the two loops of one start *)
Lemma both_chains ii h t l done fuel : ii < length ts -> length done = length ts -> length ts < fuel -> nth_error fh ii = Some h -> nth_error ft ii = Some t -> up ii l ->
  exists cm d1 cm2 d2, chain fuel false fh ft ii ii h None ([ii], []) done = Ok (cm, d1) /\ chain fuel true fh ft ii ii None t cm d1 = Ok (cm2, d2) /\ length d2 = length ts /\
    (forall x, nth_error d2 x = Some true <-> nth_error done x = Some true \/ In x (ii :: map node l)) /\
    (cm2 = (ii :: map node l, map ends l) \/ cm2 = turned (ii :: map node l, map ends l)).
Proof.
  intros L Ld F Eh Et U. destruct fuel as [|fuel]; [lia|]. destruct (links ii L) as (h' & t' & Eh' & Et' & K). rewrite Eh in Eh'. injection Eh' as <-. rewrite Et in Et'. injection Et' as <-.
  destruct K as [(-> & -> & N)|[(j & f & s & -> & -> & Lj & X)|(j & f & s & -> & -> & Lj & X)]].
  - inversion U as [|? e' j' f' l' Lj' X' U']; subst; [|destruct (N _ _ _ Lj' X')]. exists ([ii], []), (upd done ii true), ([ii], []), (upd (upd done ii true) ii true).
    split; [apply chain_idle; assumption|]. split; [apply chain_idle; [exact L|rewrite upd_length; exact Ld]|]. split; [rewrite !upd_length; exact Ld|]. split; [|left; reflexivity].
    intros x. rewrite !nth_error_upd, !upd_length, Ld, (proj2 (Nat.ltb_lt _ _) L), !andb_true_r. cbn [map In]. destruct (Nat.eqb_spec x ii) as [->|D]; [split; auto|]. split; [auto|]. intros [A|[A|[]]]; [exact A|congruence].
  - destruct (chain_up (Datatypes.S fuel) false ii ii (Some (f, j, s)) None ([ii], []) done l) as (d1 & E1 & L1 & M1); [lia|exact L|lia|exact Ld|exact U|auto|].
    exists (ext false ([ii], []) l), d1, (ext false ([ii], []) l), (upd d1 ii true). split; [exact E1|]. split; [apply chain_idle; assumption|]. split; [rewrite upd_length; exact L1|]. split; [|left; reflexivity].
    intros x. rewrite nth_error_upd, L1, (proj2 (Nat.ltb_lt _ _) L), andb_true_r. cbn [In]. destruct (Nat.eqb_spec x ii) as [->|D]; [split; auto|]. rewrite M1. split; [intros [A|[A|(A & B)]]; [auto|auto|contradiction]|]. intros [A|[A|A]]; [auto|congruence|auto].
  - destruct (chain_up (Datatypes.S fuel) true ii ii None (Some (f, j, s)) ([ii], []) (upd done ii true) l) as (d1 & E1 & L1 & M1); [lia|exact L|lia|rewrite upd_length; exact Ld|exact U|auto|].
    exists ([ii], []), (upd done ii true), (ext true ([ii], []) l), d1. split; [apply chain_idle; assumption|]. split; [exact E1|]. split; [exact L1|]. split; [|right; unfold ext, turned; cbn [fst snd rev]; rewrite map_map, app_nil_r; reflexivity].
    intros x. rewrite M1, nth_error_upd, Ld, (proj2 (Nat.ltb_lt _ _) L), andb_true_r. cbn [In]. destruct (Nat.eqb_spec x ii) as [->|D]; [split; auto|].
    split; [intros [A|[A|(_ & A)]]; [auto|auto|contradiction]|]. intros [A|[A|A]]; [auto|congruence|auto].
Qed.
End Paths.

(** Every sequence of operations. *)
From Verif Require Import Base SortUtil CCB_Model CCB_Spec CCB_Store CCB_Ops CCB_Split CCB_Merge CCB_Over CCB_Hist CCB_Check CCB_Remove CCB_Out.
Local Open Scope nat_scope.

(** the operations of ClusterCrawler on its clusters, in any order. TmpStore is asked to store any list of
    hits; the sequences here are those in which it answers true (see [store_refused_refuted] for the others)
    or is called by one of the other functions. The arguments are arbitrary otherwise. *)
Inductive crawl (hs : list hit) : st -> Prop :=
  | w_start : crawl hs (start hs)
  | w_store s l p ec bc s' : crawl hs s -> tmp_store s l p ec bc = Ok (true, s') -> crawl hs s'
  | w_obs s k s' : crawl hs s -> make_obs s k = Ok s' -> crawl hs s'
  | w_split s k pos iv ec bc b s' : crawl hs s -> split_cluster s k pos iv ec bc = Ok (b, s') -> crawl hs s'
  | w_merge s k1 k2 c1 c2 fit p np ec bc s' : crawl hs s -> live s k1 c1 -> live s k2 c2 -> cctp c1 = cctp c2 ->
      do_merge s k1 k2 fit p np ec bc = Ok s' -> crawl hs s'
  | w_overlap s k1 k2 c1 c2 d mx fit ec bc s' : crawl hs s -> live s k1 c1 -> live s k2 c2 -> k1 <> k2 ->
      overlap_pair s k1 k2 d mx fit ec bc = Ok s' -> crawl hs s'
  | w_extend s k c ds ec s' : crawl hs s -> live s k c -> (0 <= proc c)%Z -> NoDup ds -> free s ds -> in_plane hs (cctp c) ds ->
      extend_ds s k ds ec = Ok s' -> crawl hs s'
  | w_lop s k c n iv ec bc s' : crawl hs s -> live s k c -> lop s k n iv ec bc = Ok s' -> crawl hs s'
  | w_kill s l s' : crawl hs s -> kill_all s l = Ok s' -> crawl hs s'
  | w_hits s lo hi th s' : crawl hs s -> merge_marks s lo hi th = Ok s' -> crawl hs s'.

Theorem crawl_sound hs s : crawl hs s -> sound s /\ hits s = hs.
Proof.
  induction 1 as [|s l p ec bc s' _ (H & Q) E|s k s' _ (H & Q) E|s k pos iv ec bc b s' _ (H & Q) E|s k1 k2 c1 c2 fit p np ec bc s' _ (H & Q) L1 L2 Hct E|
    s k1 k2 c1 c2 d mx fit ec bc s' _ (H & Q) L1 L2 Hne E|s k c ds ec s' _ (H & Q) Lv Hp Nd Fr Pl E|s k c n iv ec bc s' _ (H & Q) Lv E|s l s' _ (H & Q) E|s lo hi th s' _ (H & Q) E].
  - split; [apply start_sound|reflexivity].
  - destruct (store_sound _ _ _ _ _ _ H E) as (A & _ & pl & _ & ->). auto.
  - destruct (obs_any _ _ _ H E) as (A & [-> |(c & _ & ->)]); auto.
  - destruct (split_sound _ _ _ _ _ _ _ _ H E) as (A & B). split; [auto|congruence].
  - destruct (merge_sound _ _ _ _ _ _ _ _ _ _ _ H L1 L2 Hct E) as (A & B). split; [auto|congruence].
  - destruct (overlap_sound _ _ _ _ _ _ _ _ _ _ _ H L1 L2 Hne E) as (A & B). split; [auto|congruence].
  - rewrite <- Q in Pl. destruct (extend_sound _ _ _ _ _ _ H Lv Hp Nd Fr Pl E) as (A & B & _). split; [auto|congruence].
  - destruct (lop_sound _ _ _ _ _ _ _ _ H Lv E) as (A & B & _). split; [auto|congruence].
  - destruct (kill_sound _ _ _ H E) as (A & B). split; [auto|congruence].
  - destruct (merge_marks_sound _ _ _ _ _ H E) as (A & B). split; [auto|congruence].
Qed.

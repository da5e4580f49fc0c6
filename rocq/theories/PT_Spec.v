(** Vocabulary of C40 and C50: well-formed track trees, and what "part of the tree" means, in terms of the tracks' node lists *)
From Verif Require Import Base SortedObj_Model PT_Model.

(** what an object links to *)
Definition kids (o : obj) : list nat := if o_branch o then o_nexts o else match o_next o with Some x => [x] | None => [] end.
(** the links of the heap are mutual (what C25 proves of every history of links) *)
Record linked (h : heap) : Prop := mkL {
  l_prev : forall x o y, h x = Some o -> o_prev o = Some y -> exists oy, h y = Some oy /\ In x (kids oy);
  l_kids : forall y oy x, h y = Some oy -> In x (kids oy) -> exists o, h x = Some o /\ o_prev o = Some y /\ o_branch o = negb (o_branch oy);
  l_nodup : forall y oy, h y = Some oy -> NoDup (kids oy);
  l_last : forall y oy, h y = Some oy -> o_branch oy = true -> o_next oy = back (o_nexts oy);
  l_seg : forall y oy, h y = Some oy -> o_branch oy = false -> o_nexts oy = [] }.

(** track [t'] starts at a node of [t] other than the first: it is a branch of [t] *)
Definition branch_of (w : world) (t t' : nat) : Prop :=
  t <> t' /\ exists T T' n, w_trk w t = Some T /\ w_trk w t' = Some T' /\ In n (tl (t_nodes T)) /\ hd_error (t_nodes T') = Some n.
Definition below (w : world) : nat -> nat -> Prop := clos_refl_trans nat (branch_of w).
(** track [t] leads on from node [n] *)
Definition leads_from (w : world) (t n : nat) : Prop := exists T, w_trk w t = Some T /\ In n (removelast (t_nodes T)).
Definition starts_at (w : world) (t n : nat) : Prop := exists T, w_trk w t = Some T /\ hd_error (t_nodes T) = Some n.
(** [n] is the start of the whole tree [t] is in *)
Definition origin (w : world) (t n : nat) : Prop := exists r, below w r t /\ starts_at w r n /\ forall p, ~ branch_of w p r.

(** a track owns the segments between its nodes *)
Definition track_ok (w : world) (t : nat) (T : ptrack) : Prop :=
  NoDup (t_nodes T) /\ 2 <= length (t_nodes T) /\ length (t_nodes T) = S (length (t_segs T)) /\
  forall i s, nth_error (t_segs T) i = Some s ->
    w_par w s = t /\ exists a b oa os ob, nth_error (t_nodes T) i = Some a /\ nth_error (t_nodes T) (S i) = Some b /\
      w_heap w a = Some oa /\ o_branch oa = true /\ In s (o_nexts oa) /\ w_heap w s = Some os /\ o_branch os = false /\ o_next os = Some b /\ w_heap w b = Some ob /\ o_branch ob = true.
Record wf (w : world) : Prop := mkWf {
  wf_linked : linked (w_heap w);
  wf_track : forall t T, w_trk w t = Some T -> track_ok w t T;
  wf_seg : forall s o, w_heap w s = Some o -> o_branch o = false -> exists T, w_trk w (w_par w s) = Some T /\ In s (t_segs T);
  wf_tree : exists depth : nat -> nat, forall t t', branch_of w t t' -> depth t < depth t' }.

(** the collection holds every track, each once *)
Definition holds (w : world) (cs : list cand) : Prop :=
  (forall t T, w_trk w t = Some T -> exists c, In c cs /\ c_trk c = Some t) /\
  (forall c t, In c cs -> c_trk c = Some t -> w_trk w t <> None) /\
  (forall i j ci cj t, nth_error cs i = Some ci -> nth_error cs j = Some cj -> c_trk ci = Some t -> c_trk cj = Some t -> i = j).

(** the candidates whose track satisfies [D] get tree id [id]; nothing else changes *)
Definition relabelled (D : nat -> Prop) (id : Z) (cs cs' : list cand) : Prop :=
  Forall2 (fun c c' => (c' = c \/ c' = set_tree c id /\ exists t, c_trk c = Some t /\ D t) /\ (forall t, c_trk c = Some t -> D t -> c' = set_tree c id)) cs cs'.

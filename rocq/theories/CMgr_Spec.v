(** Specification vocabulary for the merge manager. *)
From Verif Require Import Base MultiMap CMergeBK_Model CMgr_Model.

Section Spec.
Context {hit extra W : Type}.
Notation cluster := (cluster hit extra).

(** the priorities the priority algorithm returns when asked for the clusters from the last to
    the first (default: number of hits); position [i] is the priority of cluster [i] *)
Fixpoint prio_vals (cfg : config hit extra W) (w : W) (cl : list cluster) : W * list Z :=
  match cl with
  | [] => (w, [])
  | c :: rest =>
      let (w1, ps) := prio_vals cfg w rest in
      let (w2, p) := ask_prio cfg w1 c in
      (w2, p :: ps)
  end.

(** cluster [i] is examined before cluster [j] *)
Definition before (ps : list Z) (i j : nat) : Prop :=
  (nth i ps 0 > nth j ps 0)%Z \/ (nth i ps 0%Z = nth j ps 0%Z /\ i < j).

Definition same_plane (cl : list cluster) (i j : nat) : Prop :=
  exists a b, nth_error cl i = Some a /\ nth_error cl j = Some b /\
              uchar (cplane a) = uchar (cplane b).

(** the hits of the input clusters listed in [s], in that order *)
Definition hits_of (cl : list cluster) (s : list nat) : list hit :=
  concat (map (fun i => match nth_error cl i with Some c => chits c | None => [] end) s).

(** the relation generated by the positive answers of an algorithm *)
Definition answered_yes (tr : asked) : nat -> nat -> Prop :=
  clos_refl_sym_trans nat (fun a b => In (a, b, true) tr).

Definition together (sets : list (list nat)) (i j : nat) : Prop :=
  exists s, In s sets /\ In i s /\ In j s.

(** [i] comes earlier than [j] in the list *)
Definition earlier (l : list nat) (i j : nat) : Prop := exists l1 l2 l3, l = l1 ++ i :: l2 ++ j :: l3.

(** Everything that is claimed of one iteration; [unmerged i] says that cluster [i] was
    left alone (not merged with anything) by the previous iteration. *)
Record iteration_correct (unmerged : nat -> Prop) (it : iteration hit extra) : Prop := {
  (** the sets partition the clusters of this iteration *)
  ic_partition : Permutation (concat (it_sets it)) (seq 0 (length (it_in it)));
  ic_nonempty : forall s, In s (it_sets it) -> s <> [];
  (** merged exactly when linked by positive answers *)
  ic_together : forall i j, i < length (it_in it) -> j < length (it_in it) ->
      (together (it_sets it) i j <-> answered_yes (it_merge it) i j);
  (** the merge algorithm is only asked about same-plane clusters of positive priority,
      the one of higher priority first *)
  ic_asked : forall i j a, In (i, j, a) (it_merge it) ->
      same_plane (it_in it) i j /\ earlier (map snd (rev (it_prio it))) i j /\
      (forall p k, In (p, k) (it_prio it) -> (0 < p)%Z);
  (** clusters separated by the separation algorithm stay apart *)
  ic_separated : forall i j, In (i, j, true) (it_sep it) -> ~ together (it_sets it) i j;
  (** nothing relevant is skipped *)
  ic_complete : forall i j, earlier (map snd (rev (it_prio it))) i j -> same_plane (it_in it) i j ->
      (exists a, In (i, j, a) (it_merge it)) \/
      (unmerged i /\ unmerged j) \/
      (exists a b, (In (a, b, true) (it_sep it) \/ In (b, a, true) (it_sep it)) /\
                   together (it_sets it) a i /\ together (it_sets it) b j);
  (** output cluster k holds the hits of the clusters of set k, and nothing else *)
  ic_out : length (it_out it) = length (it_sets it) /\
      forall k c, nth_error (it_out it) k = Some c ->
        Permutation (chits c) (hits_of (it_in it) (nth k (it_sets it) []))
}.

(** consecutive iterations: each works on the output of the one before *)
Fixpoint chained (cl : list cluster) (unmerged : nat -> Prop) (its : list (iteration hit extra)) : Prop :=
  match its with
  | [] => True
  | it :: rest =>
      it_in it = cl /\ iteration_correct unmerged it /\
      chained (it_out it) (fun k => length (nth k (it_sets it) []) = 1) rest
  end.

Definition last_out (cl : list cluster) (its : list (iteration hit extra)) : list cluster :=
  last (map (@it_out hit extra) its) cl.
End Spec.

(** Specification vocabulary for the match manager. *)
From Verif Require Import Base CMgr_Model CMgr_Spec CMatchBK_Model CMatchBK_Spec.

Definition plane_of {hit extra} (cl : list (cluster hit extra)) (i : nat) : Z :=
  match nth_error cl i with Some c => cplane c | None => 0%Z end.

(** a candidate for a match: at least two clusters of positive priority on different planes
    (listed by increasing plane) *)
Definition match_candidate {hit extra} (cl : list (cluster hit extra)) (prio : list Z) (s : list nat) : Prop :=
  2 <= length s /\
  StronglySorted (fun i j => (plane_of cl i < plane_of cl j)%Z) s /\
  forall i, In i s -> i < length cl /\ (0 < nth i prio 0)%Z.

(** the clusters handed to the algorithm for a candidate *)
Definition clusters_of {hit extra} (cl : list (cluster hit extra)) (s : list nat) : list (cluster hit extra) :=
  flat_map (fun i => match nth_error cl i with Some c => [c] | None => [] end) s.

(** the algorithm's answers when asked in this order, threading its hidden state *)
Fixpoint answers {hit extra W} (alg : W -> list (cluster hit extra) -> W * Z) (cl : list (cluster hit extra))
    (w : W) (cands : list (list nat)) : W * list Z :=
  match cands with
  | [] => (w, [])
  | s :: rest =>
      let (w1, x) := alg w (clusters_of cl s) in
      let (w2, xs) := answers alg cl w1 rest in
      (w2, x :: xs)
  end.

(** the register after the given (score, set) registrations *)
Definition register_of (h : list (Z * list nat)) : reg :=
  match_run reg_reset (map (fun x => OpMatch (snd x) (fst x)) h).

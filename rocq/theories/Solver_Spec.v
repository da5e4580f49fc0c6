(** Specification vocabulary for the space point solver (C15-C19, C45): a network of space charges,
    the charge on a wire, the energy of a charge assignment.  No solver function is mentioned. *)
From Coq Require Import QArith Qcanon.
From Verif Require Import Base QcUtil Solver_Model.
Local Open Scope Qc_scope.

(** total charge of the space charges that lie on induction wire [w] *)
Definition charge_on (N : net) (scs : list nat) (pred : nat -> Qc) (w : nat) : Qc :=
  qsum (fun s => (if opt_eqb (n_w1 N s) (Some w) then pred s else 0) +
                 (if opt_eqb (n_w2 N s) (Some w) then pred s else 0)) scs.
(** coupling-weighted charge of the neighbours of [s] *)
Definition neighbour_charge (N : net) (pred : nat -> Qc) (s : nat) : Qc :=
  qsum (fun tc => snd tc * pred (fst tc)) (n_nei N s).

(** C16: what "predictions are consistent" means *)
Definition Consistent (N : net) (scs : list nat) (m : mem) : Prop :=
  (forall w, m_wpred m w = charge_on N scs (m_pred m) w) /\
  (forall s, In s scs -> m_pot m s = neighbour_charge N (m_pred m) s).

(** well-formed networks, as BuildSystem / AddNeighbours produce them: distinct space charges; symmetric neighbour
    lists without repetition or self reference; the two induction views have no wire in common *)
Record WF (N : net) (scs : list nat) : Prop := {
  wf_nodup : NoDup scs;
  wf_in : forall s t c, In s scs -> In (t, c) (n_nei N s) -> In t scs;
  wf_sym : forall s t c, In s scs -> In (t, c) (n_nei N s) -> In (s, c) (n_nei N t);
  wf_once : forall s, In s scs -> NoDup (map fst (n_nei N s));
  wf_noself : forall s c, In s scs -> ~ In (s, c) (n_nei N s);
  wf_views : forall s t w, In s scs -> In t scs -> n_w1 N s = Some w -> n_w2 N t <> Some w }.

(** the quantity the solver minimises: squared misprediction of the induction wires minus the regularisation *)
Definition energy (N : net) (alpha : Qc) (scs : list nat) (pred : nat -> Qc) : Qc :=
  qsum (fun w => (n_q N w - charge_on N scs pred w) * (n_q N w - charge_on N scs pred w)) (iwires_of N scs)
  - alpha * qsum (fun s => pred s * pred s + pred s * neighbour_charge N pred s) scs.

(** moving charge [x] from [j] to [i] *)
Definition moved (pred : nat -> Qc) (i j : nat) (x : Qc) : nat -> Qc :=
  fun s => if Nat.eqb s i then pred s + x else if Nat.eqb s j then pred s - x else pred s.
Definition added (pred : nat -> Qc) (i : nat) (x : Qc) : nat -> Qc :=
  fun s => if Nat.eqb s i then pred s + x else pred s.

(** the space charges of a system *)
Definition all_scs (cws : list cwire) (orphans : list nat) : list nat := flat_map cw_cross cws ++ orphans.

(** one update request *)
Inductive op := OpWire (alpha : Qc) (k : nat) | OpOrphan (alpha : Qc) (s : nat).
Definition run_op (N : net) (cws : list cwire) (m : mem) (o : op) : outcome mem :=
  match o with
  | OpWire alpha k => do w <- idx cws k; iterate_cwire N alpha w m
  | OpOrphan alpha s => iterate_orphan N alpha s m
  end.
(** requests on wires and orphans of the system; orphans have both induction wires *)
Definition op_ok (N : net) (cws : list cwire) (orphans : list nat) (o : op) : Prop :=
  match o with
  | OpWire _ k => (k < length cws)%nat
  | OpOrphan alpha s => In s orphans /\ alpha < two /\ n_w1 N s <> None /\ n_w2 N s <> None
  end.
(** C17 *)
Definition Conserved (cws : list cwire) (orphans : list nat) (m : mem) : Prop :=
  (forall w, In w cws -> cw_cross w <> [] -> qsum (m_pred m) (cw_cross w) = cw_q w) /\
  (forall s, In s (all_scs cws orphans) -> 0 <= m_pred m s).

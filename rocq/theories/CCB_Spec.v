(** ClusterCrawler book-keeping: specification. *)
From Verif Require Import Base CCB_Model.
Local Open Scope nat_scope.

(** cluster number [k] is in use *)
Definition live (s : st) (k : nat) (c : clus) : Prop := nth_error (tcl s) k = Some c /\ (0 < cid c)%Z.

(** inClus and the clusters in use say the same *)
Record consistent (s : st) : Prop := {
  q_len : length (inc s) = length (hits s);
  q_own : forall k c h, live s k c -> In h (ch c) -> nth_error (inc s) h = Some (Z.of_nat (S k));
  q_back : forall h v, nth_error (inc s) h = Some v -> (0 < v)%Z ->
           exists k c, v = Z.of_nat (S k) /\ live s k c /\ In h (ch c) }.

(** the wire of hit [h] *)
Definition wire (hs : list hit) (h : nat) : nat := match nth_error hs h with Some x => hw x | None => 0 end.
(** going upstream: each hit on a lower wire than the one before *)
Definition upstream (hs : list hit) (l : list nat) : Prop := Sorted (fun a b => wire hs b < wire hs a) l.
(** all hits of [l] exist and lie in plane [p] *)
Definition in_plane (hs : list hit) (p : nat * nat * nat) (l : list nat) : Prop :=
  forall h, In h l -> exists x, nth_error hs h = Some x /\ (hc x, ht x, hp x) = p.

(** a cluster as such: two hits or more, none twice, of one plane; the begin and end wires *)
Record good (hs : list hit) (c : clus) : Prop := {
  g_two : 2 <= length (ch c);
  g_nodup : NoDup (ch c);
  g_plane : in_plane hs (cctp c) (ch c);
  g_bw : bw c = wire hs (hd 0 (ch c));
  g_ew : ew c = wire hs (last (ch c) 0) }.

Record sound (s : st) : Prop := {
  s_cons : consistent s;
  s_ncl : ncl s = Z.of_nat (length (tcl s));
  s_max : (ncl s <= 32767)%Z;
  s_id : forall k c, nth_error (tcl s) k = Some c -> cid c = Z.of_nat (S k) \/ cid c = (- Z.of_nat (S k))%Z;
  s_good : forall k c, nth_error (tcl s) k = Some c -> good (hits s) c;
  s_up : forall k c, live s k c -> (proc c < 900)%Z -> upstream (hits s) (ch c) }.

(** the hits of [l] are free *)
Definition free (s : st) (l : list nat) : Prop := forall h, In h l -> nth_error (inc s) h = Some 0%Z.
(** inClus after the hits of [l] got the value [v] *)
Definition marked (i i' : list Z) (l : list nat) (v : Z) : Prop :=
  length i' = length i /\ forall h, h < length i -> nth_error i' h = if in_dec Nat.eq_dec h l then Some v else nth_error i h.

(** What finding small clusters should do *)
From Coq Require Import QArith Qcanon Permutation.
From Verif Require Import Base Solver_Model SCF_Model.
Local Open Scope nat_scope.

Section Spec.
Variables (g : scale) (cf : cfg) (hits : list hit).
(** closer than [r] cm, in the plane of wire and time *)
Definition within (r : Qc) (a b : hit) : Prop :=
  let dw := (qc_nat (h_wire a) - qc_nat (h_wire b))%Qc in let dt := (h_tick a - h_tick b)%Qc in
  (0 < r)%Qc /\ (dw * wcm g * (dw * wcm g) + dt * tcm g * (dt * tcm g) < r * r)%Qc.
(** NHitsInClust hits or more, itself included, within the radius of [h] on its plane *)
Definition crowded (h : hit) : Prop :=
  exists l, NoDup l /\ (forall x, In x l -> In x hits /\ h_plane x = h_plane h /\ within (f_rad cf) x h) /\ (f_n cf <= qc_nat (length l))%Qc.
(** an event: distinct hits, on planes of the detector *)
Definition event : Prop := NoDup hits /\ forall h, In h hits -> h_plane h < f_np cf.
(** in the order of the event *)
Inductive ordered : list hit -> list hit -> Prop :=
  | ord_nil : ordered [] [] | ord_skip x l m : ordered l m -> ordered l (x :: m) | ord_take x l m : ordered l m -> ordered (x :: l) (x :: m).
(** the clusters of plane [p], one after the other: each is made of the isolated hits of the plane that are not in an earlier cluster and are within the radius of
    its first hit, which is the first isolated hit of the plane in the event that is not in an earlier cluster *)
Definition seeded (p : nat) (cl : list (list hit)) : Prop :=
  forall k c, nth_error cl k = Some c ->
    ordered c hits /\ exists s r pre post, c = s :: r /\ hits = pre ++ s :: post /\
      (forall h, In h pre -> h_plane h = p -> ~ crowded h -> In h (concat (firstn k cl))) /\
      (forall h, In h c <-> In h hits /\ h_plane h = p /\ ~ crowded h /\ ~ In h (concat (firstn k cl)) /\ within (f_rad cf) h s).
End Spec.

(** Small list lemmas shared by the later subsystems. *)
From Verif Require Import Base.

Lemma nth_upd_same {A} (l : list A) i v d : i < length l -> nth i (upd l i v) d = v.
Proof. intros H. rewrite nth_upd, Nat.eqb_refl. destruct (Nat.ltb_spec i (length l)); [reflexivity|lia]. Qed.

Lemma nth_upd_other {A} (l : list A) i j v d : j <> i -> nth j (upd l i v) d = nth j l d.
Proof. intros H. rewrite nth_upd. destruct (Nat.eqb_spec j i); [lia|reflexivity]. Qed.

(** Proofs for C49 *)
From Verif Require Import Base Util MCBT_Proofs CDB_Model CDB_Spec.
Local Open Scope nat_scope.

Lemma mark_true f h k : mark f h k = true <-> k = h \/ f k = true.
Proof. unfold mark. destruct (Nat.eqb_spec k h); intuition congruence. Qed.

Lemma ls_cons x l : list_sum (x :: l) = x + list_sum l.
Proof. reflexivity. Qed.

Section P.
Variables (nb : nat -> list nat) (minpts : nat).
Notation core := (core nb minpts).
Notation reach := (reach nb minpts).
Variable (hits : list nat).
Hypothesis Hnb : forall h, In h hits -> incl (nb h) hits.

(** what holds between two steps of expandCluster; [q]: hits still in the queue, [l]: all hits in clusters *)
Record inv (q l : list nat) (b : bits) : Prop := mkInv {
  i_in : forall h, visited b h = true -> In h hits;
  i_av : forall h, attached b h = true -> visited b h = true;
  i_core : forall h, visited b h = true -> core h -> attached b h = true /\ forall y, In y (nb h) -> attached b y = true \/ In y q;
  i_list : forall h, attached b h = true <-> In h l;
  i_once : NoDup l;
  i_noise : forall h, noise b h = true -> visited b h = true /\ ~ core h;
  i_rest : forall h, visited b h = true -> attached b h = false -> noise b h = true }.

Definition work (b : bits) : nat := list_sum (map (fun h => if visited b h then 0 else length (nb h)) hits).
Lemma work_mark (l : list nat) f h : NoDup l -> In h l -> f h = false ->
  list_sum (map (fun k => if mark f h k then 0 else length (nb k)) l) + length (nb h) = list_sum (map (fun k => if f k then 0 else length (nb k)) l).
Proof.
  induction l as [|x l IH]; intros Hn Hi Hf; [destruct Hi|]. inversion Hn; subst. cbn [map]. rewrite !ls_cons. destruct Hi as [->|Hi].
  - unfold mark at 1. rewrite Nat.eqb_refl, Hf.
    assert (E : list_sum (map (fun k => if mark f h k then 0 else length (nb k)) l) = list_sum (map (fun k => if f k then 0 else length (nb k)) l)).
    { f_equal. apply map_ext_in. intros k Hk. unfold mark. destruct (Nat.eqb_spec k h); [congruence|reflexivity]. }
    lia.
  - assert (x <> h) by (intros ->; contradiction). unfold mark at 1. destruct (Nat.eqb_spec x h); [congruence|]. specialize (IH ltac:(assumption) Hi Hf). lia.
Qed.

Hypothesis Hhits : NoDup hits.
Lemma work_visit b h : In h hits -> visited b h = false -> work (set_visited h b) + length (nb h) = work b.
Proof using Hhits. intros Hi Hv. unfold work. cbn [set_visited visited]. apply work_mark; assumption. Qed.
Lemma work_le b : work b <= list_sum (map (fun h => length (nb h)) hits).
Proof. unfold work. clear. induction hits as [|x l IH]; [cbn; lia|]. cbn [map]. rewrite !ls_cons. destruct (visited b x); lia. Qed.

Lemma expand_ok s earlier : forall fuel q c b, inv q (earlier ++ c) b -> incl q hits -> length q + work b <= fuel -> attached b s = true -> (forall h, In h c \/ In h q -> reach s h) ->
  exists c' b', expand_cluster nb minpts fuel q c b = Some (c ++ c', b') /\ inv [] (earlier ++ c ++ c') b' /\ (forall h, In h c' -> reach s h) /\ attached b' s = true /\ (forall h, visited b h = true -> visited b' h = true) /\ (forall h, noise b' h = noise b h).
Proof using Hnb Hhits.
  induction fuel as [|fuel IH]; intros q c b I Hq Hf Hs Hr.
  - destruct q; [|cbn in Hf; lia]. exists [], b. rewrite !app_nil_r. split; [reflexivity|]. split; [exact I|]. split; [intros ? []|]. split; [exact Hs|]. split; auto.
  - destruct q as [|h q]; [exists [], b; rewrite !app_nil_r; split; [reflexivity|]; split; [exact I|]; split; [intros ? []|]; split; [exact Hs|]; split; auto|].
    cbn [expand_cluster].
    assert (Hh : In h hits) by (apply Hq; left; reflexivity).
    set (v := visited b h). set (b1 := if v then b else set_visited h b). set (more := if v then [] else if minpts <=? length (nb h) then nb h else []).
    assert (V1 : visited b1 h = true). { unfold b1. destruct v eqn:Ev; [exact Ev|]. cbn. unfold mark. rewrite Nat.eqb_refl. reflexivity. }
    assert (Vm : forall k, visited b1 k = true <-> k = h \/ visited b k = true).
    { intros k. unfold b1. destruct v eqn:Ev; [|apply mark_true]. split; [auto|]. intros [->|]; auto. }
    assert (A1 : forall k, attached b1 k = attached b k) by (intros k; unfold b1; destruct v; reflexivity).
    assert (N1 : forall k, noise b1 k = noise b k) by (intros k; unfold b1; destruct v; reflexivity).
    assert (M1 : incl more hits). { unfold more. destruct v; [intros ? []|]. destruct (minpts <=? length (nb h)); [apply Hnb, Hh|intros ? []]. }
    assert (W1 : length more + work b1 <= work b).
    { unfold more, b1. destruct v eqn:Ev; [cbn; lia|]. assert (X := work_visit b h Hh Ev). destruct (minpts <=? length (nb h)); cbn [length]; lia. }
    assert (R1 : forall k, In k more -> reach s k).
    { unfold more. destruct v; [intros ? []|]. destruct (Nat.leb_spec minpts (length (nb h))); [|intros ? []]. intros k Hk. apply reach_step with h; [apply Hr; right; left; reflexivity|assumption|exact Hk]. }
    assert (Hlen : length (q ++ more) + work b1 <= fuel) by (rewrite app_length; cbn [length] in Hf; lia).
    assert (Hqm : incl (q ++ more) hits). { intros k Hk. apply in_app_iff in Hk. destruct Hk as [Hk|Hk]; [apply Hq; right; exact Hk|apply M1, Hk]. }
    assert (Hcore : forall k y, visited b1 k = true -> core k -> In y (nb k) -> attached b y = true \/ y = h \/ In y (q ++ more)).
    { intros k y Hk Ck Hy. destruct (Nat.eq_dec y h) as [->|Ne]; [auto|]. destruct v eqn:Ev.
      - destruct (proj2 (i_core _ _ _ I k Hk Ck) y Hy) as [?|[?|?]]; [auto|congruence|]. right; right; apply in_app_iff; auto.
      - destruct (proj1 (Vm k) Hk) as [->|Hk'].
        + right; right. apply in_app_iff; right. unfold more. destruct (Nat.leb_spec minpts (length (nb h))); [exact Hy|unfold CDB_Spec.core in Ck; lia].
        + destruct (proj2 (i_core _ _ _ I k Hk' Ck) y Hy) as [?|[?|?]]; [auto|congruence|]. right; right; apply in_app_iff; auto. }
    assert (Hcatt : forall k, visited b1 k = true -> core k -> attached b k = true \/ k = h).
    { intros k Hk Ck. destruct (proj1 (Vm k) Hk) as [->|Hk']; [auto|]. left. apply (i_core _ _ _ I k Hk' Ck). }
    destruct (attached b1 h) eqn:Ea.
    + assert (I' : inv (q ++ more) (earlier ++ c) b1).
      { rewrite A1 in Ea. constructor.
        - intros k Hk. apply Vm in Hk. destruct Hk as [->|Hk]; [exact Hh|apply (i_in _ _ _ I k Hk)].
        - intros k Hk. rewrite A1 in Hk. apply Vm. right. apply (i_av _ _ _ I k Hk).
        - intros k Hk Ck. rewrite A1. split; [destruct (Hcatt k Hk Ck) as [?| ->]; assumption|]. intros y Hy. rewrite A1. destruct (Hcore k y Hk Ck Hy) as [?|[->|?]]; auto.
        - intros k. rewrite A1. apply (i_list _ _ _ I).
        - apply (i_once _ _ _ I).
        - intros k Hk. rewrite N1 in Hk. destruct (i_noise _ _ _ I k Hk). split; [apply Vm; auto|assumption].
        - intros k Hk Hk'. rewrite A1 in Hk'. rewrite N1. apply Vm in Hk. destruct Hk as [->|Hk]; [congruence|apply (i_rest _ _ _ I k Hk Hk')]. }
      destruct (IH (q ++ more) c b1 I' Hqm Hlen) as (c' & b' & E & I2 & R2 & S2 & V2 & N2).
      { rewrite A1. exact Hs. }
      { intros k [Hk|Hk]; [apply Hr; left; exact Hk|]. apply in_app_iff in Hk. destruct Hk as [Hk|Hk]; [apply Hr; right; right; exact Hk|apply R1, Hk]. }
      exists c', b'. split; [exact E|]. split; [exact I2|]. split; [exact R2|]. split; [exact S2|]. split; [intros k Hk; apply V2, Vm; right; exact Hk|intros k; rewrite N2; apply N1].
    + assert (I' : inv (q ++ more) (earlier ++ (c ++ [h])) (set_attached h b1)).
      { rewrite A1 in Ea. assert (Hni : ~ In h (earlier ++ c)) by (intros X; apply (i_list _ _ _ I) in X; congruence). constructor; cbn [set_attached visited attached noise].
        - intros k Hk. apply Vm in Hk. destruct Hk as [->|Hk]; [exact Hh|apply (i_in _ _ _ I k Hk)].
        - intros k Hk. apply mark_true in Hk. destruct Hk as [->|Hk]; [exact V1|]. rewrite A1 in Hk. apply Vm. right. apply (i_av _ _ _ I k Hk).
        - intros k Hk Ck. rewrite mark_true, A1. split; [destruct (Hcatt k Hk Ck); auto|]. intros y Hy. rewrite mark_true, A1. destruct (Hcore k y Hk Ck Hy) as [?|[?|?]]; auto.
        - intros k. rewrite mark_true, A1, (i_list _ _ _ I), app_assoc, !in_app_iff. cbn [In]. intuition auto.
        - rewrite app_assoc. apply NoDup_app_iff. split; [apply (i_once _ _ _ I)|]. split; [repeat constructor; intros []|]. intros k Hk [<-|[]]. contradiction.
        - intros k Hk. rewrite N1 in Hk. destruct (i_noise _ _ _ I k Hk). split; [apply Vm; auto|assumption].
        - intros k Hk Hk'. unfold mark in Hk'. destruct (Nat.eqb_spec k h); [discriminate|]. rewrite A1 in Hk'. rewrite N1. apply Vm in Hk. destruct Hk as [->|Hk]; [congruence|apply (i_rest _ _ _ I k Hk Hk')]. }
      destruct (IH (q ++ more) (c ++ [h]) (set_attached h b1) I' Hqm) as (c' & b' & E & I2 & R2 & S2 & V2 & N2).
      { unfold work in *. cbn [set_attached visited]. exact Hlen. }
      { cbn [set_attached attached]. apply mark_true. right. rewrite A1. exact Hs. }
      { intros k [Hk|Hk]; [apply in_app_iff in Hk; destruct Hk as [Hk|[<-|[]]]; apply Hr; [left; exact Hk|right; left; reflexivity]|]. apply in_app_iff in Hk. destruct Hk as [Hk|Hk]; [apply Hr; right; right; exact Hk|apply R1, Hk]. }
      exists (h :: c'), b'. rewrite <- !app_assoc in *. cbn [app] in *. split; [exact E|]. split; [exact I2|]. split; [intros k [<-|Hk]; [apply Hr; right; left; reflexivity|apply R2, Hk]|]. split; [exact S2|]. split; [intros k Hk; apply V2; cbn; apply Vm; right; exact Hk|intros k; rewrite N2; apply N1].
Qed.

Definition grown (cs : list (list nat)) : Prop := forall k c, nth_error cs k = Some c -> exists s rest pre post,
     c = s :: rest /\ hits = pre ++ s :: post /\ core s /\ ~ In s (concat (firstn k cs)) /\ (forall h, In h pre -> core h -> In h (concat (firstn k cs))) /\
     (forall h, In h c <-> reach s h /\ ~ In h (concat (firstn k cs))).
Lemma concat_snoc {A} (cs : list (list A)) c : concat (cs ++ [c]) = concat cs ++ c.
Proof. rewrite concat_app. cbn. rewrite app_nil_r. reflexivity. Qed.

Lemma loop_ok fuel : list_sum (map (fun h => length (nb h)) hits) <= fuel -> forall hs pre cs b, hits = pre ++ hs -> inv [] (concat cs) b -> grown cs -> (forall h, In h pre -> visited b h = true) ->
  exists cs' b', cluster_loop nb minpts fuel hs cs b = Some (cs', b') /\ inv [] (concat cs') b' /\ grown cs' /\ (forall h, In h hits -> visited b' h = true) /\ (forall h, noise b h = true -> noise b' h = true).
Proof using Hnb Hhits.
  intros Hf. induction hs as [|h hs IH]; intros pre cs b Eh I G Hv.
  - rewrite app_nil_r in Eh. exists cs, b. split; [reflexivity|]. split; [exact I|]. split; [exact G|]. split; [rewrite Eh; exact Hv|auto].
  - cbn [cluster_loop]. assert (Eh' : hits = (pre ++ [h]) ++ hs) by (rewrite <- app_assoc; exact Eh). assert (Hh : In h hits) by (rewrite Eh; apply in_app_iff; right; left; reflexivity).
    destruct (visited b h) eqn:Ev.
    { apply (IH (pre ++ [h]) cs b Eh' I G). intros k Hk. apply in_app_iff in Hk. destruct Hk as [Hk|[<-|[]]]; auto. }
    assert (Na : attached b h = false). { destruct (attached b h) eqn:E; [|reflexivity]. apply (i_av _ _ _ I) in E. congruence. }
    assert (Ni : ~ In h (concat cs)) by (intros X; apply (i_list _ _ _ I) in X; congruence).
    destruct (Nat.ltb_spec (length (nb h)) minpts) as [Hc|Hc].
    + assert (Nc : ~ core h) by (unfold CDB_Spec.core; lia).
      destruct (IH (pre ++ [h]) cs (set_noise h (set_visited h b)) Eh') as (cs' & b' & E & I' & G' & V' & N').
      * constructor; cbn [set_noise set_visited visited attached noise].
        -- intros k Hk. apply mark_true in Hk. destruct Hk as [->|Hk]; [exact Hh|apply (i_in _ _ _ I k Hk)].
        -- intros k Hk. apply mark_true. right. apply (i_av _ _ _ I k Hk).
        -- intros k Hk Ck. apply mark_true in Hk. destruct Hk as [->|Hk]; [contradiction|apply (i_core _ _ _ I k Hk Ck)].
        -- apply (i_list _ _ _ I).
        -- apply (i_once _ _ _ I).
        -- intros k Hk. rewrite mark_true. apply mark_true in Hk. destruct Hk as [->|Hk]; [auto|]. destruct (i_noise _ _ _ I k Hk); auto.
        -- intros k Hk Hk'. rewrite mark_true. apply mark_true in Hk. destruct Hk as [->|Hk]; [auto|]. right. apply (i_rest _ _ _ I k Hk Hk').
      * exact G.
      * intros k Hk. cbn. apply mark_true. apply in_app_iff in Hk. destruct Hk as [Hk|[<-|[]]]; auto.
      * exists cs', b'. split; [exact E|]. split; [exact I'|]. split; [exact G'|]. split; [exact V'|]. intros k Hk. apply N'. cbn. apply mark_true. auto.
    + assert (Ch : core h) by exact Hc.
      assert (I1 : inv (nb h) (concat cs ++ [h]) (set_attached h (set_visited h b))).
      { constructor; cbn [set_attached set_visited visited attached noise].
        - intros k Hk. apply mark_true in Hk. destruct Hk as [->|Hk]; [exact Hh|apply (i_in _ _ _ I k Hk)].
        - intros k Hk. apply mark_true. apply mark_true in Hk. destruct Hk as [->|Hk]; [auto|right; apply (i_av _ _ _ I k Hk)].
        - intros k Hk Ck. rewrite mark_true. apply mark_true in Hk. destruct Hk as [->|Hk]; [split; [auto|]; intros y Hy; right; exact Hy|].
          destruct (i_core _ _ _ I k Hk Ck) as [X Y]. split; [auto|]. intros y Hy. rewrite mark_true. destruct (Y y Hy) as [?|[]]; auto.
        - intros k. rewrite mark_true, (i_list _ _ _ I), in_app_iff. cbn [In]. intuition auto.
        - apply NoDup_app_iff. split; [apply (i_once _ _ _ I)|]. split; [repeat constructor; intros []|]. intros k Hk [<-|[]]. contradiction.
        - intros k Hk. rewrite mark_true. destruct (i_noise _ _ _ I k Hk); auto.
        - intros k Hk Hk'. unfold mark in Hk'. apply mark_true in Hk. destruct (Nat.eqb_spec k h); [discriminate|]. destruct Hk as [->|Hk]; [congruence|]. apply (i_rest _ _ _ I k Hk Hk'). }
      destruct (expand_ok h (concat cs) fuel (nb h) [h] _ I1) as (c' & b2 & E2 & I2 & R2 & S2 & V2 & N2).
      * apply Hnb, Hh.
      * assert (X := work_visit b h Hh Ev). assert (Y := work_le b). unfold work in *. cbn [set_attached visited set_visited] in *. lia.
      * cbn. apply mark_true. auto.
      * intros k [[<-|[]]|Hk]; [constructor|]. apply reach_step with h; [constructor|exact Ch|exact Hk].
      * rewrite E2. cbn [app] in *.
        assert (C2 : forall k, reach h k -> attached b2 k = true).
        { intros k Hk. induction Hk as [|x y Hx IHx Cx Hy]; [exact S2|]. apply (i_av _ _ _ I2) in IHx. destruct (proj2 (i_core _ _ _ I2 x IHx Cx) y Hy) as [?|[]]; assumption. }
        destruct (IH (pre ++ [h]) (cs ++ [h :: c']) b2 Eh') as (cs' & b' & E & I' & G' & V' & N').
        -- rewrite concat_snoc. exact I2.
        -- intros k c Hk. destruct (Nat.lt_ge_cases k (length cs)) as [Hlt|Hge].
           ++ rewrite nth_error_app1 in Hk by exact Hlt. rewrite firstn_app, (proj2 (Nat.sub_0_le k (length cs))), firstn_O, app_nil_r by lia. apply G, Hk.
           ++ rewrite nth_error_app2 in Hk by exact Hge. destruct (k - length cs) as [|j] eqn:Ek; [|destruct j; discriminate]. cbn in Hk. inversion Hk; subst c. assert (k = length cs) by lia. subst k.
              rewrite firstn_app, Nat.sub_diag, firstn_O, app_nil_r, firstn_all.
              exists h, c', pre, hs. split; [reflexivity|]. split; [exact Eh|]. split; [exact Ch|]. split; [exact Ni|]. split.
              { intros k Hp Ck. apply (i_list _ _ _ I). apply (i_core _ _ _ I k (Hv k Hp) Ck). }
              intros k. split.
              { intros Hi. split; [destruct Hi as [<-|Hi]; [constructor|apply R2, Hi]|]. assert (N := i_once _ _ _ I2). apply NoDup_app_iff in N. destruct N as (_ & _ & N). intros X. exact (N k X Hi). }
              { intros [Rk Nk]. apply C2 in Rk. apply (i_list _ _ _ I2) in Rk. apply in_app_iff in Rk. destruct Rk as [Rk|Rk]; [contradiction|exact Rk]. }
        -- intros k Hk. apply V2. cbn. apply mark_true. apply in_app_iff in Hk. destruct Hk as [Hk|[<-|[]]]; auto.
        -- exists cs', b'. split; [exact E|]. split; [exact I'|]. split; [exact G'|]. split; [exact V'|]. intros k Hk. apply N'. rewrite N2. exact Hk.
Qed.

Lemma loop_prefix fuel cl0 : forall hs cs b, cluster_loop nb minpts fuel hs (cl0 ++ cs) b = match cluster_loop nb minpts fuel hs cs b with Some (r, b') => Some (cl0 ++ r, b') | None => None end.
Proof.
  induction hs as [|h hs IH]; intros cs b; [reflexivity|]. cbn [cluster_loop]. destruct (visited b h); [apply IH|]. destruct (length (nb h) <? minpts); [apply IH|].
  destruct (expand_cluster nb minpts fuel (nb h) [h] (set_attached h (set_visited h b))) as [[c b2]|]; [|reflexivity]. rewrite <- app_assoc. apply IH.
Qed.
Lemma loop_seen fuel : forall hs cs b, (forall h, In h hs -> visited b h = true) -> cluster_loop nb minpts fuel hs cs b = Some (cs, b).
Proof. induction hs as [|h hs IH]; intros cs b Hv; [reflexivity|]. cbn [cluster_loop]. rewrite (Hv h (or_introl eq_refl)). apply IH. intros k Hk. apply Hv. right; exact Hk. Qed.
End P.


(** only the bits of the hits in the list matter, and only those change *)
Section Agree.
Variables (nb : nat -> list nat) (minpts : nat) (hits : list nat).
Hypothesis Hnb : forall h, In h hits -> incl (nb h) hits.
Definition same_at (h : nat) (b1 b2 : bits) : Prop := visited b1 h = visited b2 h /\ attached b1 h = attached b2 h /\ noise b1 h = noise b2 h.
Definition agree (b1 b2 : bits) : Prop := forall h, In h hits -> same_at h b1 b2.
Definition untouched (b1 b2 : bits) : Prop := forall h, ~ In h hits -> same_at h b1 b2.
Lemma agree_visit h b1 b2 : agree b1 b2 -> agree (set_visited h b1) (set_visited h b2).
Proof. intros H k Hk. destruct (H k Hk) as (A & B & C). unfold same_at. cbn. unfold mark. rewrite A, B, C. auto. Qed.
Lemma agree_attach h b1 b2 : agree b1 b2 -> agree (set_attached h b1) (set_attached h b2).
Proof. intros H k Hk. destruct (H k Hk) as (A & B & C). unfold same_at. cbn. unfold mark. rewrite A, B, C. auto. Qed.
Lemma agree_noise h b1 b2 : agree b1 b2 -> agree (set_noise h b1) (set_noise h b2).
Proof. intros H k Hk. destruct (H k Hk) as (A & B & C). unfold same_at. cbn. unfold mark. rewrite A, B, C. auto. Qed.
Lemma unt_visit h b b' : In h hits -> untouched (set_visited h b) b' -> untouched b b'.
Proof. intros Hh H k Hk. destruct (H k Hk) as (A & B & C). cbn in *. unfold mark in *. destruct (Nat.eqb_spec k h); [congruence|]. repeat split; auto. Qed.
Lemma unt_attach h b b' : In h hits -> untouched (set_attached h b) b' -> untouched b b'.
Proof. intros Hh H k Hk. destruct (H k Hk) as (A & B & C). cbn in *. unfold mark in *. destruct (Nat.eqb_spec k h); [congruence|]. repeat split; auto. Qed.
Lemma unt_noise h b b' : In h hits -> untouched (set_noise h b) b' -> untouched b b'.
Proof. intros Hh H k Hk. destruct (H k Hk) as (A & B & C). cbn in *. unfold mark in *. destruct (Nat.eqb_spec k h); [congruence|]. repeat split; auto. Qed.
Lemma unt_refl b : untouched b b.
Proof. intros k _. repeat split. Qed.
Lemma unt_trans b1 b2 b3 : untouched b1 b2 -> untouched b2 b3 -> untouched b1 b3.
Proof. intros H1 H2 k Hk. destruct (H1 k Hk) as (A & B & C), (H2 k Hk) as (A' & B' & C'). repeat split; congruence. Qed.

Lemma expand_agree : forall fuel q c b1 b2 c' b1', incl q hits -> agree b1 b2 -> expand_cluster nb minpts fuel q c b1 = Some (c', b1') ->
  exists b2', expand_cluster nb minpts fuel q c b2 = Some (c', b2') /\ agree b1' b2' /\ untouched b2 b2'.
Proof using Hnb.
  induction fuel as [|fuel IH]; intros q c b1 b2 c' b1' Hq Ha E; (destruct q as [|h q]; [cbn in E |- *; inversion E; subst; exists b2; split; [reflexivity|]; split; [exact Ha|apply unt_refl]|]); [discriminate|].
  cbn [expand_cluster] in *. assert (Hh : In h hits) by (apply Hq; left; reflexivity). destruct (Ha h Hh) as (A & B & C). rewrite <- A. 
  set (more := if visited b1 h then [] else if minpts <=? length (nb h) then nb h else []) in *.
  assert (Hqm : incl (q ++ more) hits).
  { intros k Hk. apply in_app_iff in Hk. destruct Hk as [Hk|Hk]; [apply Hq; right; exact Hk|]. unfold more in Hk. destruct (visited b1 h); [destruct Hk|]. destruct (minpts <=? length (nb h)); [exact (Hnb h Hh k Hk)|destruct Hk]. }
  destruct (visited b1 h).
  - rewrite <- B. destruct (attached b1 h).
    + apply (IH _ _ _ _ _ _ Hqm Ha E).
    + destruct (IH _ _ _ _ _ _ Hqm (agree_attach h _ _ Ha) E) as (b2' & E2 & A2 & U2). exists b2'. split; [exact E2|]. split; [exact A2|]. apply (unt_attach h b2 b2' Hh U2).
  - cbn [set_visited attached] in *. rewrite <- B. assert (Ha' := agree_visit h _ _ Ha). destruct (attached b1 h).
    + destruct (IH _ _ _ _ _ _ Hqm Ha' E) as (b2' & E2 & A2 & U2). exists b2'. split; [exact E2|]. split; [exact A2|]. apply (unt_visit h b2 b2' Hh U2).
    + destruct (IH _ _ _ _ _ _ Hqm (agree_attach h _ _ Ha') E) as (b2' & E2 & A2 & U2). exists b2'. split; [exact E2|]. split; [exact A2|]. apply (unt_visit h b2 b2' Hh), (unt_attach h _ b2' Hh U2).
Qed.
Lemma loop_agree fuel : forall hs cs b1 b2 cs' b1', incl hs hits -> agree b1 b2 -> cluster_loop nb minpts fuel hs cs b1 = Some (cs', b1') ->
  exists b2', cluster_loop nb minpts fuel hs cs b2 = Some (cs', b2') /\ agree b1' b2' /\ untouched b2 b2'.
Proof using Hnb.
  induction hs as [|h hs IH]; intros cs b1 b2 cs' b1' Hi Ha E; [cbn in *; inversion E; subst; exists b2; split; [reflexivity|]; split; [exact Ha|apply unt_refl]|].
  cbn [cluster_loop] in *. assert (Hh : In h hits) by (apply Hi; left; reflexivity). assert (Hi' : incl hs hits) by (intros k Hk; apply Hi; right; exact Hk). destruct (Ha h Hh) as (A & B & C). rewrite <- A. destruct (visited b1 h); [apply (IH _ _ _ _ _ Hi' Ha E)|].
  assert (Ha' := agree_visit h _ _ Ha). destruct (length (nb h) <? minpts).
  - destruct (IH _ _ _ _ _ Hi' (agree_noise h _ _ Ha') E) as (b2' & E2 & A2 & U2). exists b2'. split; [exact E2|]. split; [exact A2|]. apply (unt_visit h b2 b2' Hh), (unt_noise h _ b2' Hh U2).
  - destruct (expand_cluster nb minpts fuel (nb h) [h] (set_attached h (set_visited h b1))) as [[c b1x]|] eqn:Ex; [|discriminate].
    destruct (expand_agree _ _ _ _ _ _ _ (Hnb h Hh) (agree_attach h _ _ Ha') Ex) as (b2x & Ex2 & Ax & Ux). rewrite Ex2.
    destruct (IH _ _ _ _ _ Hi' Ax E) as (b2' & E2 & A2 & U2). exists b2'. split; [exact E2|]. split; [exact A2|].
    apply (unt_trans b2 b2x b2'); [|exact U2]. apply (unt_visit h b2 b2x Hh), (unt_attach h _ b2x Hh Ux).
Qed.
End Agree.

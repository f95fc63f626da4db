(** Use counts are the numbers of references. *)

From Coq Require Import ZArith List Bool Lia Permutation.
From Verif Require Import Outcome CodecModel OwnModel OwnSpec.
Import ListNotations.
Local Open Scope Z_scope.

Lemma owner_spec a b : reflect (a = b) (owner_eqb a b).
Proof.
  destruct a as [x|x], b as [y|y]; cbn [owner_eqb]; try (constructor; congruence);
    destruct (Z.eqb_spec x y); constructor; congruence.
Qed.
Lemma owner_refl a : owner_eqb a a = true.
Proof. destruct (owner_spec a a); congruence. Qed.

(** * References as a list *)

Definition one (r : option nat) (k : nat) : Z := match r with Some j => if Nat.eqb j k then 1 else 0 | None => 0 end.
Fixpoint count (e : list (owner * option nat)) (k : nat) : Z :=
  match e with [] => 0 | (_, r) :: e => one r k + count e k end.

Lemma count_remove o e k r : get o e = Some r -> count (remove o e) k = count e k - one r k.
Proof.
  induction e as [|(o', r') e IH]; cbn [get remove count]; [discriminate|].
  destruct (owner_eqb o o'); intros H.
  - injection H as ->. lia.
  - cbn [count]. rewrite IH by auto. lia.
Qed.
Lemma one_nonneg r k : 0 <= one r k.
Proof. destruct r as [j|]; cbn; [destruct (Nat.eqb j k); lia|lia]. Qed.
Lemma count_nonneg e k : 0 <= count e k.
Proof. induction e as [|(o, r) e IH]; cbn [count]; [lia|]. pose proof (one_nonneg r k). lia. Qed.
Lemma count_get o e k : get o e = Some (Some k) -> 0 < count e k.
Proof.
  intros H. pose proof (count_remove o e k _ H) as E. pose proof (count_nonneg (remove o e) k). cbn [one] in E. rewrite Nat.eqb_refl in E. lia.
Qed.

Lemma get_in o e : get o e <> None <-> In o (map fst e).
Proof.
  induction e as [|(o', r) e IH]; cbn [get map In fst]; [tauto|]. destruct (owner_spec o o') as [->|N].
  - split; [auto|discriminate].
  - rewrite IH. intuition congruence.
Qed.
Lemma map_remove o e : NoDup (map fst e) -> NoDup (map fst (remove o e)) /\ (forall o', In o' (map fst (remove o e)) -> In o' (map fst e)).
Proof.
  induction e as [|(o', r) e IH]; cbn [remove map fst]; intros N; [easy|]. inversion N as [|? ? N1 N2]; subst.
  destruct (owner_eqb o o'); [cbn; split; auto|]. destruct (IH N2) as (I1 & I2). cbn [map fst]. split.
  - constructor; auto.
  - intros x [->|H]; cbn; auto.
Qed.
Lemma get_remove o o' e : NoDup (map fst e) -> get o' (remove o e) = if owner_eqb o o' then None else get o' e.
Proof.
  induction e as [|(p, r) e IH]; cbn [remove get map fst]; intros N; [now destruct (owner_eqb o o')|]. inversion N as [|? ? N1 N2]; subst.
  destruct (owner_spec o p) as [->|Np].
  - destruct (owner_spec p o') as [->|Np'].
    + destruct (get o' e) eqn:G; auto. exfalso. apply N1. apply get_in. congruence.
    + destruct (owner_spec o' p); congruence.
  - cbn [get]. rewrite IH by auto. destruct (owner_spec o' p) as [->|Np'].
    + destruct (owner_spec o p); congruence.
    + reflexivity.
Qed.

(** No owner refers to [k] when the count is zero. *)
Lemma count_unowned e k : NoDup (map fst e) -> count e k = 0 <-> forall o, get o e <> Some (Some k).
Proof.
  intros N. split.
  - intros H o G. pose proof (count_get o e k G). lia.
  - induction e as [|(o, r) e IH]; intros H; [reflexivity|]. cbn [map fst] in N. inversion N as [|? ? N1 N2]; subst. cbn [count]. rewrite IH; auto.
    + specialize (H o). cbn [get] in H. rewrite owner_refl in H. destruct r as [j|]; cbn [one]; [|lia].
      destruct (Nat.eqb_spec j k); [subst; now destruct H|lia].
    + intros o'. specialize (H o'). cbn [get] in H. destruct (owner_spec o' o) as [Eo|]; auto.
      intros G. apply N1. rewrite <- Eo. apply get_in. congruence.
Qed.

(** * Modules and their counts *)

Lemma nth_set k v ms j : nth_error (set_mod k v ms) j =
  if Nat.eqb k j then (match nth_error ms j with Some _ => Some v | None => None end) else nth_error ms j.
Proof.
  revert k j. induction ms as [|m ms IH]; intros [|k] [|j]; cbn; auto; try apply IH.
  destruct (Nat.eqb k j); reflexivity.
Qed.
Lemma len_set k v ms : length (set_mod k v ms) = length ms.
Proof. revert k. induction ms as [|m ms IH]; intros [|k]; cbn; auto. Qed.

Definition releases (st : list storage) (k : nat) : list (Z * Z) :=
  match nth_error st k with Some s => releasing s | None => [] end.

Record inv (c : nat -> Z) (mods : list (option omodule)) (st : list storage) (calls : list (Z * Z)) : Prop := {
  i_len : length mods = length st;
  i_mod : forall k, match nth_error mods k with
    | Some (Some m) => om_uses m = c k /\ 0 < c k /\
        exists bs, nth_error st k = Some (om_addr m, om_del m, bs) /\ compile bs = Ok (om_body m)
    | _ => c k = 0
    end;
  i_calls : exists ds, NoDup ds /\ (forall k, In k ds <-> nth_error mods k = Some None) /\
    Permutation calls (flat_map (releases st) ds) }.

Lemma inv_ext c c' mods st calls : (forall k, c k = c' k) -> inv c mods st calls -> inv c' mods st calls.
Proof.
  intros E [L M C]. constructor; auto. intros k. specialize (M k). destruct (nth_error mods k) as [[m|]|]; rewrite <- E; auto.
Qed.

Lemma releasing_ok addr del bs : releasing (addr, del, bs) = delete_storage addr del.
Proof.
  unfold releasing, delete_storage. destruct (Z.eq_dec addr 0), (Z.eqb_spec addr 0), (Z.eq_dec del 0), (Z.eqb_spec del 0); try congruence; reflexivity.
Qed.

Lemma retain_ok c w st r : inv c (ow_mods w) st (ow_calls w) -> (forall k, r = Some k -> 0 < c k) ->
  exists mods, retain r w = Ok (mkOW (ow_env w) mods (ow_calls w)) /\ length mods = length (ow_mods w) /\
    inv (fun k => c k + one r k) mods st (ow_calls w).
Proof.
  intros I H. destruct r as [k|].
  - specialize (H k eq_refl). destruct I as [L M C]. pose proof (M k) as Mk. unfold retain.
    destruct (nth_error (ow_mods w) k) as [[m|]|] eqn:E; [|lia|lia]. eexists. split; [reflexivity|]. split; [apply len_set|].
    constructor.
    + now rewrite len_set.
    + intros j. rewrite nth_set. cbn [one]. destruct (Nat.eqb_spec k j) as [<-|N].
      * rewrite E. cbn [om_uses om_addr om_del om_body]. destruct Mk as (M1 & M2 & M3). split; [lia|]. split; [lia|auto].
      * specialize (M j). destruct (nth_error (ow_mods w) j) as [[m'|]|]; rewrite Z.add_0_r; auto.
    + destruct C as (ds & N & D & P). exists ds. split; auto. split; auto. intros j. rewrite D, nth_set.
      destruct (Nat.eqb_spec k j) as [<-|]; [rewrite E; split; discriminate|reflexivity].
  - exists (ow_mods w). split; [now destruct w|]. split; auto. eapply inv_ext; [|exact I]. intros k. cbn. lia.
Qed.

Lemma release_ok c w st r : inv c (ow_mods w) st (ow_calls w) -> (forall k, r = Some k -> 0 < c k) ->
  exists mods calls, release r w = Ok (mkOW (ow_env w) mods calls) /\ length mods = length (ow_mods w) /\
    inv (fun k => c k - one r k) mods st calls.
Proof.
  intros I H. destruct r as [k|].
  - specialize (H k eq_refl). destruct I as [L M C]. pose proof (M k) as Mk. unfold release.
    destruct (nth_error (ow_mods w) k) as [[m|]|] eqn:E; [|lia|lia]. destruct Mk as (M1 & M2 & bs & M3 & M4).
    destruct (Z.eqb_spec (om_uses m) 1) as [E1|E1]; (eexists; eexists; split; [reflexivity|]; split; [apply len_set|]).
    + constructor.
      * now rewrite len_set.
      * intros j. rewrite nth_set. cbn [one]. destruct (Nat.eqb_spec k j) as [<-|N].
        { rewrite E. lia. }
        specialize (M j). destruct (nth_error (ow_mods w) j) as [[m'|]|]; rewrite Z.sub_0_r; auto.
      * destruct C as (ds & N & D & P). exists (ds ++ [k]). split; [|split].
        { apply (Permutation_NoDup (l := k :: ds)); [apply Permutation_cons_append|].
          constructor; auto. rewrite D, E. discriminate. }
        { intros j. rewrite in_app_iff, D, nth_set. cbn [In]. destruct (Nat.eqb_spec k j) as [<-|Nj]; [rewrite E; intuition|intuition congruence]. }
        { rewrite flat_map_app. apply Permutation_app; auto. cbn [flat_map]. rewrite app_nil_r. unfold releases. now rewrite M3, releasing_ok. }
    + constructor.
      * now rewrite len_set.
      * intros j. rewrite nth_set. cbn [one]. destruct (Nat.eqb_spec k j) as [<-|N].
        { rewrite E. cbn [om_uses om_addr om_del om_body]. split; [lia|]. split; [lia|eauto]. }
        specialize (M j). destruct (nth_error (ow_mods w) j) as [[m'|]|]; rewrite Z.sub_0_r; auto.
      * destruct C as (ds & N & D & P). exists ds. split; auto. split; auto. intros j. rewrite D, nth_set.
        destruct (Nat.eqb_spec k j) as [<-|]; [rewrite E; split; discriminate|reflexivity].
  - exists (ow_mods w), (ow_calls w). split; [now destruct w|]. split; auto. eapply inv_ext; [|exact I]. intros k. cbn. lia.
Qed.

Lemma inv_snoc_live c mods st calls addr del bs m : inv c mods st calls -> compile bs = Ok m ->
  inv (fun k => c k + one (Some (length mods)) k) (mods ++ [Some (mkOM addr del m 1)]) (st ++ [(addr, del, bs)]) calls.
Proof.
  intros [L M C] E.
  assert (Z0 : c (length mods) = 0). { pose proof (M (length mods)) as H. destruct (nth_error mods (length mods)) as [[?|]|] eqn:F; auto.
    assert (length mods < length mods)%nat by (apply nth_error_Some; congruence). lia. }
  constructor.
  - rewrite !app_length, L. reflexivity.
  - intros k. destruct (Nat.lt_trichotomy k (length mods)) as [H|[->|H]].
    + rewrite nth_error_app1 by auto. specialize (M k). cbn [one]. destruct (Nat.eqb_spec (length mods) k); [lia|].
      destruct (nth_error mods k) as [[m'|]|]; rewrite Z.add_0_r; auto. destruct M as (M1 & M2 & bs' & M3 & M4). split; auto. split; auto.
      exists bs'. split; auto. rewrite nth_error_app1; auto. eapply Nat.lt_le_trans; [exact H|]. now rewrite L.
    + rewrite nth_error_app2, Nat.sub_diag by lia. cbn [nth_error one om_uses om_addr om_del om_body]. rewrite Nat.eqb_refl, Z0.
      split; [lia|]. split; [lia|]. exists bs. split; auto. rewrite nth_error_app2 by (now rewrite L). now rewrite L, Nat.sub_diag.
    + assert (nth_error (mods ++ [Some (mkOM addr del m 1)]) k = None) as -> by (apply nth_error_None; rewrite app_length; cbn; lia).
      cbn [one]. destruct (Nat.eqb_spec (length mods) k); [lia|]. specialize (M k).
      assert (nth_error mods k = None) as F by (apply nth_error_None; lia). rewrite F in M. lia.
  - destruct C as (ds & N & D & P). exists ds. split; auto. split.
    + intros k. rewrite D. destruct (Nat.lt_trichotomy k (length mods)) as [H|[->|H]].
      * now rewrite nth_error_app1 by auto.
      * rewrite nth_error_app2, Nat.sub_diag by lia. cbn [nth_error].
        assert (nth_error mods (length mods) = None) as -> by (apply nth_error_None; lia). split; discriminate.
      * rewrite (proj2 (nth_error_None mods k)) by lia. rewrite (proj2 (nth_error_None (mods ++ _) k)) by (rewrite app_length; cbn; lia).
        split; discriminate.
    + assert (G : forall k, In k ds -> releases (st ++ [(addr, del, bs)]) k = releases st k).
      { intros k H. apply D in H. unfold releases. rewrite nth_error_app1; auto. rewrite <- L. apply nth_error_Some. congruence. }
      rewrite P. clear - G. induction ds as [|k ds IH]; cbn [flat_map]; auto. rewrite G by (cbn; auto). apply Permutation_app_head. apply IH.
      intros j H. apply G. cbn; auto.
Qed.

Lemma inv_snoc_dead c mods st calls addr del bs : inv c mods st calls ->
  inv c (mods ++ [None]) (st ++ [(addr, del, bs)]) (calls ++ delete_storage addr del).
Proof.
  intros [L M C]. constructor.
  - rewrite !app_length, L. reflexivity.
  - intros k. specialize (M k). destruct (Nat.lt_trichotomy k (length mods)) as [H|[->|H]].
    + rewrite nth_error_app1 by auto. destruct (nth_error mods k) as [[m'|]|]; auto. destruct M as (M1 & M2 & bs' & M3 & M4). split; auto. split; auto.
      exists bs'. split; auto. rewrite nth_error_app1; auto. eapply Nat.lt_le_trans; [exact H|]. now rewrite L.
    + rewrite nth_error_app2, Nat.sub_diag by lia. cbn [nth_error].
      assert (nth_error mods (length mods) = None) as F by (apply nth_error_None; lia). now rewrite F in M.
    + rewrite (proj2 (nth_error_None (mods ++ [None]) k)) by (rewrite app_length; cbn; lia).
      now rewrite (proj2 (nth_error_None mods k)) in M by lia.
  - destruct C as (ds & N & D & P). exists (ds ++ [length mods]). split; [|split].
    + apply (Permutation_NoDup (l := length mods :: ds)); [apply Permutation_cons_append|]. constructor; auto.
      rewrite D. intros H. assert (length mods < length mods)%nat by (apply nth_error_Some; congruence). lia.
    + intros k. rewrite in_app_iff, D. cbn [In]. destruct (Nat.lt_trichotomy k (length mods)) as [H|[->|H]].
      * rewrite nth_error_app1 by auto. intuition lia.
      * rewrite nth_error_app2, Nat.sub_diag by lia. cbn [nth_error]. intuition.
      * rewrite (proj2 (nth_error_None mods k)) by lia. rewrite (proj2 (nth_error_None (mods ++ _) k)) by (rewrite app_length; cbn; lia).
        split; [intros [?|[?|[]]]; [discriminate|lia]|discriminate].
    + rewrite flat_map_app. apply Permutation_app.
      * assert (G : forall k, In k ds -> releases (st ++ [(addr, del, bs)]) k = releases st k).
        { intros k H. apply D in H. unfold releases. rewrite nth_error_app1; auto. rewrite <- L. apply nth_error_Some. congruence. }
        rewrite P. clear - G. induction ds as [|k ds IH]; cbn [flat_map]; auto. rewrite G by (cbn; auto). apply Permutation_app_head. apply IH.
        intros j H. apply G. cbn; auto.
      * cbn [flat_map]. rewrite app_nil_r. unfold releases. rewrite nth_error_app2 by (now rewrite L). rewrite <- L, Nat.sub_diag. cbn [nth_error].
        now rewrite releasing_ok.
Qed.

(** * The whole world *)

Record agree (w : oworld) (s : refs * list storage) : Prop := {
  a_env : forall o, get o (ow_env w) = fst s o;
  a_nodup : NoDup (map fst (ow_env w));
  a_inv : inv (count (ow_env w)) (ow_mods w) (snd s) (ow_calls w) }.

Lemma bind_nodup o r e : NoDup (map fst e) -> get o e = None -> NoDup (map fst ((o, r) :: e)).
Proof. intros N G. cbn. constructor; auto. rewrite <- get_in. congruence. Qed.

Lemma ostep_ok w s op : agree w s -> allowed (fst s) op -> exists w', ostep w op = Ok w' /\ agree w' (after s op).
Proof.
  intros A Al. destruct s as (r, st). destruct A as [E N I]. cbn [fst snd] in *.
  destruct op as [x addr del bs|x y|x y|x y|x|i y|i y|i|]; cbn [allowed ostep after] in *.
  - destruct Al as (Fx & [(m & Em)|(e & Ee)]).
    + rewrite Em. eexists. split; [reflexivity|]. constructor; cbn [fst snd ow_env ow_mods ow_calls].
      * intros o. cbn [get]. unfold put. rewrite <- (i_len _ _ _ _ I).
        destruct (owner_spec o (Handle x)) as [->|Nx]; [now rewrite owner_refl|]. destruct (owner_spec (Handle x) o); congruence.
      * apply bind_nodup; auto. now rewrite E.
      * eapply inv_ext; [|apply inv_snoc_live; eauto]. intros k. cbn [count]. lia.
    + rewrite Ee. eexists. split; [reflexivity|]. constructor; cbn [fst snd ow_env ow_mods ow_calls]; auto. now apply inv_snoc_dead.
  - destruct Al as (Fx & Fy). unfold read. rewrite E. destruct (r (Handle y)) as [v|] eqn:Ry; [|easy]. cbn [bind].
    destruct (retain_ok _ w st v I) as (mods & -> & Lm & I'); [intros k ->; apply (count_get (Handle y)); now rewrite E|].
    cbn [bind]. eexists. split; [reflexivity|]. constructor; cbn [fst snd bindv ow_env ow_mods ow_calls].
    + intros o. cbn [get]. unfold put. destruct (owner_spec o (Handle x)) as [->|Nx]; [now rewrite owner_refl|]. destruct (owner_spec (Handle x) o); congruence.
    + apply bind_nodup; auto. now rewrite E.
    + eapply inv_ext; [|exact I']. intros k. cbn [count]. lia.
  - destruct Al as (Fx & Fy). unfold read. rewrite E. destruct (r (Handle y)) as [v|] eqn:Ry; [|easy]. cbn [bind].
    eexists. split; [reflexivity|]. destruct (map_remove (Handle y) _ N) as (N1 & N2).
    assert (Nxy : Handle x <> Handle y) by (intros H; rewrite H in Fx; congruence).
    constructor; cbn [fst snd bindv unbind ow_env ow_mods ow_calls].
    + intros o. cbn [get]. rewrite get_remove by auto. unfold put. destruct (owner_spec o (Handle x)) as [->|Nx]; [now rewrite owner_refl|].
      destruct (owner_spec (Handle x) o); [congruence|].
      destruct (owner_spec o (Handle y)) as [->|Ny]; [now rewrite owner_refl|]. destruct (owner_spec (Handle y) o); [congruence|apply E].
    + apply bind_nodup; [apply bind_nodup; auto|].
      * now rewrite get_remove, owner_refl by auto.
      * cbn [get]. destruct (owner_spec (Handle x) (Handle y)); [congruence|]. rewrite get_remove by auto.
        destruct (owner_spec (Handle y) (Handle x)); [congruence|]. now rewrite E.
    + eapply inv_ext; [|exact I]. intros k. cbn [count one]. rewrite (count_remove _ _ _ v) by now rewrite E. lia.
  - destruct Al as (Fx & Fy). unfold read. rewrite !E. destruct (r (Handle y)) as [v|] eqn:Ry; [|easy]. destruct (r (Handle x)) as [u|] eqn:Rx; [|easy].
    cbn [bind]. destruct (retain_ok _ w st v I) as (mods & -> & Lm & I'); [intros k ->; apply (count_get (Handle y)); now rewrite E|].
    cbn [bind]. destruct (map_remove (Handle x) _ N) as (N1 & N2).
    destruct (release_ok _ (bindv (Handle x) v (unbind (Handle x) (mkOW (ow_env w) mods (ow_calls w)))) st u I') as (mods' & calls' & E' & Lm' & I'').
    { intros k ->. pose proof (one_nonneg v k). pose proof (count_get (Handle x) (ow_env w) k ltac:(now rewrite E)). lia. }
    exists (mkOW ((Handle x, v) :: remove (Handle x) (ow_env w)) mods' calls'). split; [exact E'|].
    constructor; cbn [fst snd ow_env ow_mods ow_calls].
    + intros o. cbn [get]. rewrite get_remove by auto. unfold put. destruct (owner_spec o (Handle x)) as [->|Nx]; [now rewrite owner_refl|].
      destruct (owner_spec (Handle x) o); [congruence|apply E].
    + apply bind_nodup; auto. now rewrite get_remove, owner_refl by auto.
    + eapply inv_ext; [|exact I'']. intros k. cbn [count]. rewrite (count_remove _ _ _ u) by now rewrite E. lia.
  - unfold read. rewrite E. destruct (r (Handle x)) as [v|] eqn:Rx; [|easy]. cbn [bind]. destruct (map_remove (Handle x) _ N) as (N1 & N2).
    destruct (release_ok _ (unbind (Handle x) w) st v I) as (mods & calls & E' & Lm & I'); [intros k ->; apply (count_get (Handle x)); now rewrite E|].
    exists (mkOW (remove (Handle x) (ow_env w)) mods calls). split; [exact E'|]. constructor; cbn [fst snd ow_env ow_mods ow_calls]; auto.
    + intros o. rewrite get_remove by auto. unfold put. now rewrite E.
    + eapply inv_ext; [|exact I']. intros k. cbn beta. rewrite (count_remove _ _ _ v); auto. now rewrite E.
  - destruct Al as (Fi & k0 & Fy). unfold read. rewrite E, Fy. cbn [bind].
    destruct (retain_ok _ w st (Some k0) I) as (mods & -> & Lm & I'); [intros k H; injection H as <-; apply (count_get (Handle y)); now rewrite E|].
    cbn [bind initialize]. eexists. split; [reflexivity|]. constructor; cbn [fst snd bindv ow_env ow_mods ow_calls].
    + intros o. cbn [get]. unfold put. destruct (owner_spec o (Instance i)) as [->|Nx]; [now rewrite owner_refl|]. destruct (owner_spec (Instance i) o); congruence.
    + apply bind_nodup; auto. now rewrite E.
    + eapply inv_ext; [|exact I']. intros k. cbn [count]. lia.
  - destruct Al as (Fi & k0 & Fy). unfold read. rewrite E, Fy. cbn [bind initialize]. eexists. split; [reflexivity|].
    destruct (map_remove (Handle y) _ N) as (N1 & N2). constructor; cbn [fst snd bindv unbind ow_env ow_mods ow_calls].
    + intros o. cbn [get]. rewrite get_remove by auto. unfold put. destruct (owner_spec o (Instance i)) as [->|Nx]; [now rewrite owner_refl|].
      destruct (owner_spec (Instance i) o); [congruence|].
      destruct (owner_spec o (Handle y)) as [->|Ny]; [now rewrite owner_refl|]. destruct (owner_spec (Handle y) o); [congruence|apply E].
    + apply bind_nodup; [apply bind_nodup; auto|].
      * now rewrite get_remove, owner_refl by auto.
      * cbn [get owner_eqb]. rewrite get_remove by auto. cbn [owner_eqb]. now rewrite E.
    + eapply inv_ext; [|exact I]. intros k. cbn [count]. rewrite (count_remove _ _ _ (Some k0)) by now rewrite E. cbn [one]. lia.
  - unfold read. rewrite E. destruct (r (Instance i)) as [v|] eqn:Rx; [|easy]. cbn [bind]. destruct (map_remove (Instance i) _ N) as (N1 & N2).
    destruct (release_ok _ (unbind (Instance i) w) st v I) as (mods & calls & E' & Lm & I'); [intros k ->; apply (count_get (Instance i)); now rewrite E|].
    exists (mkOW (remove (Instance i) (ow_env w)) mods calls). split; [exact E'|]. constructor; cbn [fst snd ow_env ow_mods ow_calls]; auto.
    + intros o. rewrite get_remove by auto. unfold put. now rewrite E.
    + eapply inv_ext; [|exact I']. intros k. cbn beta. rewrite (count_remove _ _ _ v); auto. now rewrite E.
  - exists w. split; auto. constructor; auto.
Qed.

Lemma agree0 : agree oworld0 (no_refs, []).
Proof.
  constructor; cbn; auto; [constructor|]. constructor; auto.
  - intros [|k]; reflexivity.
  - exists []. split; [constructor|]. split; auto. intros [|k]; cbn; split; (contradiction || discriminate).
Qed.

Lemma orun_app w a b : orun w (a ++ b) = do w <- orun w a; orun w b.
Proof. revert w. induction a as [|op a IH]; intros w; cbn [app orun bind]; auto. destruct (ostep w op); cbn [bind]; auto. Qed.

Lemma orun_ok ops : used_properly ops -> exists w, orun oworld0 ops = Ok w /\ agree w (history ops).
Proof.
  induction ops as [|op ops IH] using rev_ind; intros U.
  - exists oworld0. split; auto. exact agree0.
  - destruct IH as (w & E & A). { intros before op' later H. apply (U before op' (later ++ [op])). rewrite H, <- app_assoc. reflexivity. }
    destruct (ostep_ok w (history ops) op A) as (w' & E' & A'). { apply (U ops op []). reflexivity. }
    exists w'. rewrite orun_app, E. cbn [bind orun]. rewrite E'. split; auto. unfold history. rewrite fold_left_app. exact A'.
Qed.

(** The decoder decodes exactly the grammar; the writer writes it. *)

From Coq Require Import ZArith List Bool Lia ZifyBool ZifyNat.
From Verif Require Import Outcome BitLemmas LebSpec VarIntModel VarIntProofs CodecModel CodecSpec.
Import ListNotations.
Local Open Scope Z_scope.

Local Arguments read_varu32 : simpl never.
Local Arguments read_byte : simpl never.
Local Arguments read_u32 : simpl never.

Definition len (bs : bytes) : Z := Z.of_nat (length bs).

(** A reader characterised by a relation: it returns exactly what the relation says, or
    throws DecodeError / traps; it stays inside the bytes and never moves backwards. *)
Record reader {A} (strict : Z) (r : dec A) (R : bytes -> Z -> A -> Z -> Prop) : Prop := {
  rd_ok : forall bs p a p', is_bytes bs -> 0 <= p <= len bs ->
     r bs p = Ok (a, p') -> R bs p a p' /\ p + strict <= p' <= len bs;
  rd_complete : forall bs p a p', is_bytes bs -> 0 <= p <= len bs ->
     R bs p a p' -> r bs p = Ok (a, p');
  rd_tame : forall bs p, is_bytes bs -> 0 <= p <= len bs ->
     (exists x, r bs p = Ok x) \/ r bs p = Throw DecodeError \/ exists t, r bs p = Trap t }.

Lemma bytes_at_bound bs p g p' : bytes_at bs p g p' -> 0 <= p /\ p' = p + len g /\ p' <= len bs.
Proof.
  intros (pre & post & -> & <- & ->). unfold len. rewrite !app_length. lia.
Qed.

Lemma split_pos bs p : 0 <= p <= len bs ->
  exists pre post, bs = pre ++ post /\ Z.of_nat (length pre) = p.
Proof.
  intros H. exists (firstn (Z.to_nat p) bs), (skipn (Z.to_nat p) bs).
  rewrite firstn_skipn, firstn_length. unfold len in H. split; [reflexivity|lia].
Qed.

Lemma app_pos {A} (a b c d : list A) : a ++ b = c ++ d -> length a = length c -> a = c /\ b = d.
Proof.
  revert c; induction a as [|x a IH]; intros [|y c] E L; cbn in *; try lia; auto.
  injection E as -> E. destruct (IH c E ltac:(lia)) as [-> ->]. auto.
Qed.

Lemma reader_byte : reader 1 read_byte byte_at.
Proof.
  constructor.
  - intros bs p a p' Hb Hp E. destruct (split_pos bs p Hp) as (pre & post & -> & <-).
    destruct post as [|b post].
    + rewrite app_nil_r in E. rewrite read_byte_end in E. discriminate.
    + rewrite read_byte_cons in E. injection E as <- <-. split.
      * exists pre, post. cbn. auto.
      * unfold len. rewrite app_length. cbn [length]. lia.
  - intros bs p a p' Hb Hp (pre & post & -> & <- & ->).
    change ([a] ++ post) with (a :: post). now rewrite read_byte_cons.
  - intros bs p Hb Hp. destruct (split_pos bs p Hp) as (pre & post & -> & <-).
    destruct post as [|b post].
    + rewrite app_nil_r, read_byte_end. auto.
    + rewrite read_byte_cons. eauto.
Qed.

Lemma reader_u32 : reader 1 read_varu32 u32_at.
Proof.
  assert (C : forall bs p, is_bytes bs -> 0 <= p <= len bs ->
     (exists g v p', bytes_at bs p g p' /\ leb_shape g /\ (length g <= 5)%nat /\
        v = uleb_value g mod 2 ^ 32 /\ read_varu32 bs p = Ok (v, p')) \/
     read_varu32 bs p = Throw DecodeError).
  { intros bs p Hb Hp. destruct (split_pos bs p Hp) as (pre & post & -> & <-).
    assert (Hpost : is_bytes post) by (unfold is_bytes in *; rewrite Forall_app in Hb; tauto).
    destruct (leb_split 5 post Hpost) as [(g & r & -> & Hs & Hl)|(g & r & -> & Hg & Hl & He)].
    - left. exists g. eexists _, _. split; [|split; [|split; [|split; [reflexivity|]]]]; auto.
      + exists pre, r. repeat split.
      + now apply read_varu32_ok.
    - right. now apply read_varu32_throw. }
  constructor.
  - intros bs p a p' Hb Hp E. destruct (C bs p Hb Hp) as [(g & v & q & Ha & Hs & Hl & Hv & E2)|E2];
      rewrite E in E2; [|discriminate]. injection E2 as <- <-. split; [exists g; auto|].
    pose proof (bytes_at_bound _ _ _ _ Ha). pose proof (leb_nonempty _ Hs).
    assert (1 <= len g) by (unfold len; destruct g; [congruence|cbn; lia]). lia.
  - intros bs p a p' Hb Hp (g & (pre & post & -> & <- & ->) & Hs & Hl & ->).
    now apply read_varu32_ok.
  - intros bs p Hb Hp. destruct (C bs p Hb Hp) as [(g & v & q & _ & _ & _ & _ & E2)|E2]; eauto.
Qed.

Lemma reader_weaken {A} s s' (r : dec A) R : s' <= s -> reader s r R -> reader s' r R.
Proof.
  intros H [O C T]. constructor; auto. intros bs p a p' Hb Hp E.
  destruct (O _ _ _ _ Hb Hp E). split; [auto|lia].
Qed.

Lemma reader_ret {A} (a : A) : reader 0 (dret a) (fun _ p x p' => x = a /\ p' = p).
Proof.
  constructor; unfold dret.
  - intros bs p x p' _ Hp [= <- <-]. split; [auto|]. lia.
  - intros bs p x p' _ _ [-> ->]. reflexivity.
  - eauto.
Qed.

Lemma reader_throw {A} : reader 0 (@dthrow A DecodeError) (fun _ _ _ _ => False).
Proof. constructor; unfold dthrow; [discriminate|tauto|auto]. Qed.

Lemma reader_bind {A B} s1 s2 (r : dec A) (f : A -> dec B) R (S : A -> bytes -> Z -> B -> Z -> Prop) :
  0 <= s1 -> 0 <= s2 -> reader s1 r R -> (forall a, reader s2 (f a) (S a)) ->
  (forall bs p a p', R bs p a p' -> p <= p' <= len bs) ->
  reader (s1 + s2) (dbind r f) (fun bs p b p' => exists a p1, R bs p a p1 /\ S a bs p1 b p').
Proof.
  intros H1 H2 Hr Hf Hm. constructor; unfold dbind.
  - intros bs p b p' Hb Hp E. destruct (bind_ok _ _ _ E) as ((a & p1) & E1 & E2).
    destruct (rd_ok _ _ _ Hr _ _ _ _ Hb Hp E1).
    assert (Hp1 : 0 <= p1 <= len bs) by lia.
    destruct (rd_ok _ _ _ (Hf a) _ _ _ _ Hb Hp1 E2).
    split; [eauto|]. lia.
  - intros bs p b p' Hb Hp (a & p1 & Ra & Sb).
    rewrite (rd_complete _ _ _ Hr _ _ _ _ Hb Hp Ra). cbn.
    apply (rd_complete _ _ _ (Hf a)); auto. pose proof (Hm _ _ _ _ Ra). lia.
  - intros bs p Hb Hp. destruct (rd_tame _ _ _ Hr bs p Hb Hp) as [((a & p1) & E)|[E|(t & E)]];
      rewrite E; cbn; eauto.
    destruct (rd_ok _ _ _ Hr _ _ _ _ Hb Hp E).
    apply (rd_tame _ _ _ (Hf a)); auto. lia.
Qed.

Lemma reader_ext {A} s (r : dec A) R R' :
  (forall bs p a p', R bs p a p' <-> R' bs p a p') -> reader s r R -> reader s r R'.
Proof.
  intros H [O C T]. constructor; auto.
  - intros bs p a p' Hb Hp E. rewrite <- H. auto.
  - intros bs p a p' Hb Hp E. apply C; auto. now apply H.
Qed.

Definition mono {A} (R : bytes -> Z -> A -> Z -> Prop) :=
  forall bs p a p', R bs p a p' -> p <= p' <= len bs.

Lemma mono_byte : mono byte_at.
Proof.
  intros bs p a p' H. apply bytes_at_bound in H. unfold len in *. cbn [length] in H. lia.
Qed.

Lemma mono_u32 : mono u32_at.
Proof. intros bs p a p' (g & H & _). apply bytes_at_bound in H. unfold len in *. lia. Qed.

Definition seqr {A} (R : bytes -> Z -> A -> Z -> Prop) (bs : bytes) p xs p' := seq_at (R bs) p xs p'.

Lemma mono_seq {A} (R : bytes -> Z -> A -> Z -> Prop) bs p xs p' :
  mono R -> p <= len bs -> seq_at (R bs) p xs p' -> p <= p' <= len bs.
Proof.
  intros M Hp H. induction H as [p|p x p1 xs p2 E S IH]; [lia|].
  pose proof (M _ _ _ _ E). specialize (IH ltac:(lia)). lia.
Qed.

Lemma reader_n {A} (r : dec A) R n : reader 0 r R -> mono R ->
  reader 0 (read_n n r) (fun bs p xs p' => length xs = n /\ seq_at (R bs) p xs p').
Proof.
  intros Hr M. induction n as [|n IH]; cbn [read_n].
  - eapply reader_ext; [|apply reader_ret]. intros bs p a p'. split.
    + intros (-> & ->). split; [reflexivity|constructor].
    + intros (E & S). destruct a; [|discriminate]. inversion S; auto.
  - eapply reader_ext; [|apply (reader_bind 0 0 _ _ R
      (fun x bs p xs p' => exists ys p1, (length ys = n /\ seq_at (R bs) p ys p1) /\
         (xs = x :: ys /\ p' = p1)))]; auto; try lia.
    + intros bs p xs p'. split.
      * intros (x & p1 & Rx & ys & p2 & (L & S) & -> & ->). cbn. split; [lia|].
        econstructor; eauto.
      * intros (L & S). inversion S as [|? x p1 ys ? E S2]; subst; [discriminate|].
        cbn in L. exists x, p1. split; [auto|]. exists ys, p'. repeat split; auto.
    + intros x. constructor.
      * intros bs p xs p' Hb Hp E. unfold dbind in E. destruct (bind_ok _ _ _ E) as ((ys & p1) & E1 & E2).
        injection E2 as <- <-. destruct (rd_ok _ _ _ IH _ _ _ _ Hb Hp E1).
        split; [|auto]. eauto 6.
      * intros bs p xs p' Hb Hp (ys & p1 & H & -> & ->). unfold dbind.
        rewrite (rd_complete _ _ _ IH _ _ _ _ Hb Hp H). reflexivity.
      * intros bs p Hb Hp. unfold dbind.
        destruct (rd_tame _ _ _ IH bs p Hb Hp) as [((a & p1) & E)|[E|(t & E)]]; rewrite E; cbn; eauto.
        left. eexists. reflexivity.
Qed.

(** A counted vector. *)
Lemma reader_vec {A} (r : dec A) R : reader 0 r R -> mono R ->
  reader 1 (let* n := read_varu32 in read_n (Z.to_nat n) r)
    (fun bs p xs p' => vec_at bs (R bs) p xs p').
Proof.
  intros Hr M.
  pose proof (reader_bind 1 0 _ _ _ _ ltac:(lia) ltac:(lia) reader_u32
    (fun n => reader_n r R (Z.to_nat n) Hr M) mono_u32) as H.
  replace (1 + 0) with 1 in H by lia.
  eapply reader_ext; [|exact H]. cbn beta. intros bs p xs p'. unfold vec_at. split.
  - intros (n & p1 & U & L & S). exists p1. split; [|auto].
    assert (0 <= n) by (destruct U as (g & _ & _ & _ & ->); apply Z.mod_pos_bound; lia).
    replace (Z.of_nat (length xs)) with n by lia. auto.
  - intros (p1 & U & S). exists (Z.of_nat (length xs)), p1. split; [auto|]. split; [lia|auto].
Qed.

Lemma mono_vec {A} (R : bytes -> Z -> A -> Z -> Prop) :
  mono R -> mono (fun bs p xs p' => vec_at bs (R bs) p xs p').
Proof.
  intros M bs p xs p' (p1 & U & S). pose proof (mono_u32 _ _ _ _ U).
  pose proof (mono_seq R bs p1 xs p' M ltac:(lia) S). lia.
Qed.

Lemma mono_type : mono type_at.
Proof.
  intros bs p t p' (p1 & p2 & B & V1 & V2).
  pose proof (mono_byte _ _ _ _ B).
  pose proof (mono_vec byte_at mono_byte _ _ _ _ V1).
  pose proof (mono_vec byte_at mono_byte _ _ _ _ V2). lia.
Qed.

Lemma dbind_assoc {A B C} (r : dec A) (f : A -> dec B) (g : B -> dec C) bs p :
  dbind (dbind r f) g bs p = dbind r (fun a => dbind (f a) g) bs p.
Proof. unfold dbind. destruct (r bs p) as [[a q]|?|?|?|]; reflexivity. Qed.

Lemma reader_eq {A} s (r r' : dec A) R : (forall bs p, r bs p = r' bs p) ->
  reader s r R -> reader s r' R.
Proof.
  intros E [O C T]. constructor; intros; rewrite <- E in *; eauto.
Qed.

Lemma reader_type : reader 0 read_type type_at.
Proof.
  pose proof (reader_vec read_byte byte_at (reader_weaken 1 0 _ _ ltac:(lia) reader_byte) mono_byte)
    as V.
  assert (K : reader 0 (let* args := (let* n := read_varu32 in read_n (Z.to_nat n) read_byte) in
                 let* rets := (let* n := read_varu32 in read_n (Z.to_nat n) read_byte) in
                 dret (mkFT args rets))
       (fun bs p t p' => exists p2, vec_at bs (byte_at bs) p (ft_args t) p2 /\
           vec_at bs (byte_at bs) p2 (ft_rets t) p')).
  { eapply reader_weaken; [|eapply reader_ext; [|eapply (reader_bind 1 1 _ _ _ _); [lia|lia|exact V| |]]].
    - lia.
    - shelve.
    - intros args.
      pose proof (reader_bind 1 0 _ (fun rets => dret (mkFT args rets)) _ _
        ltac:(lia) ltac:(lia) V (fun rets => reader_ret _)
        (mono_vec byte_at mono_byte)) as H.
      exact H.
    - apply (mono_vec byte_at mono_byte).
    Unshelve. cbn beta. intros bs p [args rets] p'. cbn. split.
    + intros (a & p1 & V1 & r & p2 & V2 & [= -> ->] & ->). eauto.
    + intros (p2 & V1 & V2). exists args, p2. split; [auto|]. exists rets, p'. auto. }
  assert (K2 : forall v, reader 0 (if negb (v =? FUNC) then dthrow DecodeError else
       let* args := (let* n := read_varu32 in read_n (Z.to_nat n) read_byte) in
       let* rets := (let* n := read_varu32 in read_n (Z.to_nat n) read_byte) in
       dret (mkFT args rets))
       (fun bs p t p' => v = 96 /\ exists p2, vec_at bs (byte_at bs) p (ft_args t) p2 /\
           vec_at bs (byte_at bs) p2 (ft_rets t) p')).
  { intros v. destruct (Z.eqb_spec v FUNC) as [->|N]; cbn [negb].
    - eapply reader_ext; [|exact K]. intros. change FUNC with 96. tauto.
    - eapply reader_ext; [|apply reader_throw]. intros. change FUNC with 96 in N. tauto. }
  pose proof (reader_bind 1 0 _ _ _ _ ltac:(lia) ltac:(lia) reader_byte K2 mono_byte) as H.
  apply (reader_weaken _ 0) in H; [|lia].
  eapply reader_eq; [|eapply reader_ext; [|exact H]].
  - intros bs p. unfold read_type, dbind. destruct (read_byte bs p) as [[v q]|?|?|?|]; cbn; auto.
    destruct (v =? FUNC); cbn; auto.
    repeat match goal with
    | |- context[bind (?r bs ?q)] => destruct (r bs q) as [[? ?]|?|?|?|]; cbn; auto
    end.
  - intros bs p t p'. split.
    + intros (v & p1 & B & -> & p2 & V1 & V2). exists p1, p2. auto.
    + intros (p1 & p2 & B & V1 & V2). exists 96, p1. eauto 6.
Qed.

(** A section body whose size is checked. *)
Lemma reader_sized {A} (v : dec A) R sz (k : A -> module) : reader 1 v R ->
  reader 1 (let* start := position in let* a := v in let* fin := position in
            if negb (fin - start =? sz) then dthrow DecodeError else dret (k a))
    (fun bs p m p' => exists a, R bs p a p' /\ p' - p = sz /\ m = k a).
Proof.
  intros Hv. constructor; unfold dbind, position, dthrow, dret; cbn.
  - intros bs p m p' Hb Hp E. destruct (bind_ok _ _ _ E) as ((a & p1) & E1 & E2). clear E.
    destruct (rd_ok _ _ _ Hv _ _ _ _ Hb Hp E1) as [Ra B].
    destruct (Z.eqb_spec (p1 - p) sz) as [Es|]; cbn in E2; [|discriminate].
    injection E2 as <- <-. split; [eauto|auto].
  - intros bs p m p' Hb Hp (a & Ra & Es & ->).
    rewrite (rd_complete _ _ _ Hv _ _ _ _ Hb Hp Ra). cbn. rewrite Es, Z.eqb_refl. reflexivity.
  - intros bs p Hb Hp. destruct (rd_tame _ _ _ Hv bs p Hb Hp) as [((a & p1) & E)|[E|(t & E)]];
      rewrite E; cbn; eauto. destruct (p1 - p =? sz); cbn; eauto.
Qed.

Lemma sum_nregs_spec ts : forall n, sum_nregs n ts = (n + fold_right Z.add 0 (map slots ts)) mod 2 ^ 32
  \/ (ts = [] /\ sum_nregs n ts = n).
Proof.
  induction ts as [|t ts IH]; intros n; [right; auto|]. left. cbn [sum_nregs map fold_right].
  assert (E : (n + nreg t) mod 2 ^ 32 = (n + slots t) mod 2 ^ 32).
  { unfold nreg, slots, I32, I64, F32, F64.
    destruct (Z.eqb_spec t 127); subst; [reflexivity|].
    destruct (Z.eqb_spec t 126); subst; [reflexivity|].
    destruct (Z.eqb_spec t 125); subst; [reflexivity|].
    destruct (Z.eqb_spec t 124); subst; [reflexivity|]. cbn [orb].
    replace (n + (2 ^ 64 - 1)) with (n + -1 + 2 ^ 32 * 2 ^ 32) by lia. apply Z_mod_plus_full. }
  rewrite E. destruct (IH ((n + slots t) mod 2 ^ 32)) as [->|[-> ->]].
  - rewrite Zplus_mod_idemp_l. f_equal. lia.
  - cbn. f_equal. lia.
Qed.

Lemma sum_nregs_slots ts : sum_nregs 0 ts = slots_of ts.
Proof.
  unfold slots_of. destruct (sum_nregs_spec ts 0) as [->|[-> ->]]; [f_equal|reflexivity].
Qed.

Lemma skipn_cons {A} (l : list A) i x r : skipn i l = x :: r -> nth_error l i = Some x /\ skipn (S i) l = r.
Proof.
  revert l; induction i; intros [|y l] E; cbn in *; try discriminate; [injection E as -> ->; auto|].
  destruct (IHi l E). split; auto.
Qed.

Lemma reader_codes m n : forall i, (i + n = length (m_func_types m))%nat ->
  reader 0 (decode_codes m i n)
    (fun bs p fs p' => codes_at bs (m_types m) p (skipn i (m_func_types m)) fs p').
Proof.
  induction n as [|n IH]; intros i Hi.
  - cbn [decode_codes]. eapply reader_ext; [|apply reader_ret]. cbn beta.
    rewrite skipn_all2 by lia. intros bs p fs p'. split.
    + intros [-> ->]. constructor.
    + intros H. inversion H; auto.
  - specialize (IH (S i) ltac:(lia)).
    destruct (skipn i (m_func_types m)) as [|ti tis] eqn:Es.
    { apply (f_equal (@length Z)) in Es. rewrite skipn_length in Es. cbn in Es. lia. }
    destruct (skipn_cons _ _ _ _ Es) as [En Es']. rewrite Es' in IH.
    constructor.
    + intros bs p fs p' Hb Hp E. cbn [decode_codes] in E. unfold dbind in E.
      destruct (bind_ok _ _ _ E) as ((sz & p1) & E1 & E2). clear E.
      destruct (rd_ok _ _ _ reader_u32 _ _ _ _ Hb Hp E1) as [U1 B1].
      cbn in E2. assert (Hp1 : 0 <= p1 <= len bs) by lia.
      destruct (bind_ok _ _ _ E2) as ((nr & p2) & E3 & E4). clear E2.
      destruct (rd_ok _ _ _ reader_u32 _ _ _ _ Hb Hp1 E3) as [U2 B2].
      cbn in E4. unfold reposition in E4.
      destruct ((0 <=? p1 + sz) && (p1 + sz <=? Z.of_nat (length bs))) eqn:Eb; cbn in E4; [|discriminate].
      unfold type_for in E4. rewrite En in E4.
      destruct (nth_error (m_types m) (Z.to_nat ti)) as [ft|] eqn:Et; cbn in E4; [|discriminate].
      destruct (bind_ok _ _ _ E4) as ((fs2 & p3) & E5 & E6). clear E4.
      injection E6 as <- <-.
      assert (0 <= sz) by (destruct U1 as (g & _ & _ & _ & ->); apply Z.mod_pos_bound; lia).
      assert (Hp2 : 0 <= p1 + sz <= len bs) by (unfold len; lia).
      destruct (rd_ok _ _ _ IH _ _ _ _ Hb Hp2 E5) as [C B3].
      split; [|lia]. econstructor; [|exact C].
      exists sz, p1, ft. cbn. unfold arg_nregs, ret_nregs. rewrite !sum_nregs_slots.
      repeat split; auto; try lia.
    + intros bs p fs p' Hb Hp H. inversion H as [|? ? f q ? fs2 ? C Cs]; subst. clear H.
      destruct C as (sz & p1 & ft & U1 & U2 & -> & Hq & Ht & E1 & E2 & E3 & E4 & E5).
      cbn [decode_codes]. unfold dbind.
      rewrite (rd_complete _ _ _ reader_u32 _ _ _ _ Hb Hp U1). cbn.
      pose proof (mono_u32 _ _ _ _ U1). assert (Hp1 : 0 <= p1 <= len bs) by lia.
      rewrite (rd_complete _ _ _ reader_u32 _ _ _ _ Hb Hp1 U2). cbn.
      assert (0 <= sz) by (destruct U1 as (g & _ & _ & _ & ->); apply Z.mod_pos_bound; lia).
      unfold reposition. replace ((0 <=? p1 + sz) && (p1 + sz <=? Z.of_nat (length bs))) with true by lia.
      cbn. unfold type_for. rewrite En, Ht. cbn.
      assert (Hp2 : 0 <= p1 + sz <= len bs) by (unfold len; lia).
      rewrite (rd_complete _ _ _ IH _ _ _ _ Hb Hp2 Cs). cbn. unfold dret.
      do 3 f_equal. destruct f as [a b c d e f g]. cbn in *. unfold mk_func. cbn.
      unfold arg_nregs, ret_nregs. rewrite !sum_nregs_slots. subst. reflexivity.
    + intros bs p Hb Hp. cbn [decode_codes]. unfold dbind.
      destruct (rd_tame _ _ _ reader_u32 bs p Hb Hp) as [((sz & p1) & E)|[E|(t & E)]];
        rewrite E; cbn; eauto.
      destruct (rd_ok _ _ _ reader_u32 _ _ _ _ Hb Hp E) as [U1 B1].
      assert (Hp1 : 0 <= p1 <= len bs) by lia.
      destruct (rd_tame _ _ _ reader_u32 bs p1 Hb Hp1) as [((nr & p2) & E2)|[E2|(t & E2)]];
        rewrite E2; cbn; eauto.
      unfold reposition.
      destruct ((0 <=? p1 + sz) && (p1 + sz <=? Z.of_nat (length bs))) eqn:Eb; cbn; [|eauto].
      unfold type_for. rewrite En.
      destruct (nth_error (m_types m) (Z.to_nat ti)) as [ft|] eqn:Et; cbn; [|eauto].
      assert (Hp2 : 0 <= p1 + sz <= len bs) by (unfold len; lia).
      destruct (rd_tame _ _ _ IH bs (p1 + sz) Hb Hp2) as [((fs & p3) & E3)|[E3|(t & E3)]];
        rewrite E3; cbn; eauto. unfold dret. eauto.
Qed.

Lemma mono_codes bs ts p tis fs p' : p <= len bs -> codes_at bs ts p tis fs p' -> p <= p' <= len bs.
Proof.
  intros Hp H. induction H as [|p ti f p1 tis fs p2 C Cs IH]; [lia|].
  destruct C as (sz & q & ft & U1 & U2 & -> & Hq & _).
  pose proof (mono_u32 _ _ _ _ U1).
  assert (0 <= sz) by (destruct U1 as (g & _ & _ & _ & ->); apply Z.mod_pos_bound; lia).
  unfold len in *. specialize (IH ltac:(lia)). lia.
Qed.

(** One section, after the end-of-file test. *)
Definition one_section (m : module) : dec module :=
  let* code := read_section_code in
  let* sz := read_varu32 in
  if code =? S_TYPE then decode_type_section m sz
  else if code =? S_FUNC then decode_func_section m sz
  else if code =? S_CODE then decode_code_section m sz
  else dtrap Assertion.

Definition body_at (code sz : Z) (m : module) (bs : bytes) (p : Z) (m' : module) (p' : Z) : Prop :=
  (code = 1 /\ exists ts, vec_at bs (type_at bs) p ts p' /\ p' - p = sz /\
     m' = mkModule (m_types m ++ ts) (m_func_types m) (m_funcs m)) \/
  (code = 3 /\ exists is, vec_at bs (u32_at bs) p is p' /\ p' - p = sz /\
     m' = mkModule (m_types m) (m_func_types m ++ is) (m_funcs m)) \/
  (code = 10 /\ exists fs p1, u32_at bs p (Z.of_nat (length (m_func_types m))) p1 /\
     codes_at bs (m_types m) p1 (m_func_types m) fs p' /\
     m' = mkModule (m_types m) (m_func_types m) (m_funcs m ++ fs)).

Lemma reader_body code sz m :
  reader 1 (if code =? S_TYPE then decode_type_section m sz
            else if code =? S_FUNC then decode_func_section m sz
            else if code =? S_CODE then decode_code_section m sz
            else dtrap Assertion) (body_at code sz m).
Proof.
  unfold S_TYPE, S_FUNC, S_CODE.
  destruct (Z.eqb_spec code 1) as [->|N1]; [|destruct (Z.eqb_spec code 3) as [->|N3];
    [|destruct (Z.eqb_spec code 10) as [->|N10]]].
  - pose proof (reader_sized _ _ sz (fun ts => mkModule (m_types m ++ ts) (m_func_types m) (m_funcs m))
      (reader_vec _ _ reader_type mono_type)) as H.
    eapply reader_eq; [|eapply reader_ext; [|exact H]].
    + intros bs p. unfold decode_type_section, dbind, position. cbn.
      destruct (read_varu32 bs p) as [[n q]|?|?|?|]; cbn; auto.
    + intros bs p m' p'. unfold body_at. split; [intros (ts & V & E); left; eauto|].
      intros [(_ & ts & V & E)|[(E & _)|(E & _)]]; [eauto|discriminate..].
  - pose proof (reader_sized _ _ sz (fun is => mkModule (m_types m) (m_func_types m ++ is) (m_funcs m))
      (reader_vec _ _ (reader_weaken 1 0 _ _ ltac:(lia) reader_u32) mono_u32)) as H.
    eapply reader_eq; [|eapply reader_ext; [|exact H]].
    + intros bs p. unfold decode_func_section, dbind, position. cbn.
      destruct (read_varu32 bs p) as [[n q]|?|?|?|]; cbn; auto.
    + intros bs p m' p'. unfold body_at. split; [intros (ts & V & E); right; left; eauto|].
      intros [(E & _)|[(_ & is & V & E)|(E & _)]]; [discriminate|eauto|discriminate].
  - pose proof (reader_codes m (length (m_func_types m)) 0 ltac:(lia)) as H. cbn [skipn] in H.
    unfold decode_code_section. constructor.
    + intros bs p m' p' Hb Hp E. unfold dbind in E.
      destruct (bind_ok _ _ _ E) as ((n & p1) & E1 & E2). clear E.
      destruct (rd_ok _ _ _ reader_u32 _ _ _ _ Hb Hp E1) as [U1 B1].
      destruct (Z.eqb_spec n (Z.of_nat (length (m_func_types m)))) as [->|]; cbn in E2; [|discriminate].
      rewrite Nat2Z.id in E2. destruct (bind_ok _ _ _ E2) as ((fs & p2) & E3 & E4). clear E2.
      injection E4 as <- <-. assert (Hp1 : 0 <= p1 <= len bs) by lia.
      destruct (rd_ok _ _ _ H _ _ _ _ Hb Hp1 E3) as [Cs B2].
      split; [|lia]. right. right. eauto 7.
    + intros bs p m' p' Hb Hp [(E & _)|[(E & _)|(_ & fs & p1 & U & Cs & ->)]]; try discriminate.
      unfold dbind. rewrite (rd_complete _ _ _ reader_u32 _ _ _ _ Hb Hp U). cbn.
      rewrite Z.eqb_refl, Nat2Z.id. cbn. pose proof (mono_u32 _ _ _ _ U).
      assert (Hp1 : 0 <= p1 <= len bs) by lia.
      rewrite (rd_complete _ _ _ H _ _ _ _ Hb Hp1 Cs). reflexivity.
    + intros bs p Hb Hp. unfold dbind.
      destruct (rd_tame _ _ _ reader_u32 bs p Hb Hp) as [((n & p1) & E)|[E|(t & E)]];
        rewrite E; cbn; eauto.
      destruct (Z.eqb_spec n (Z.of_nat (length (m_func_types m)))) as [->|]; cbn; [|unfold dthrow; eauto].
      rewrite Nat2Z.id. destruct (rd_ok _ _ _ reader_u32 _ _ _ _ Hb Hp E) as [U1 B1].
      assert (Hp1 : 0 <= p1 <= len bs) by lia.
      destruct (rd_tame _ _ _ H bs p1 Hb Hp1) as [((fs & p3) & E3)|[E3|(t & E3)]];
        rewrite E3; cbn; eauto. unfold dret. eauto.
  - constructor; unfold dtrap.
    + discriminate.
    + intros bs p m' p' _ _ [(E & _)|[(E & _)|(E & _)]]; tauto.
    + eauto.
Qed.

Lemma mono_body code sz m : mono (body_at code sz m).
Proof.
  intros bs p m' p' [(_ & ts & V & _)|[(_ & is & V & _)|(_ & fs & p1 & U & Cs & _)]].
  - exact (mono_vec _ mono_type _ _ _ _ V).
  - exact (mono_vec _ mono_u32 _ _ _ _ V).
  - pose proof (mono_u32 _ _ _ _ U). assert (p1 <= len bs) by lia.
    pose proof (mono_codes _ _ _ _ _ _ H0 Cs). lia.
Qed.

Lemma section_at_body bs p m m' p' : section_at bs p m m' p' <->
  exists code p1, byte_at bs p code p1 /\ code <= 11 /\
    exists sz p2, u32_at bs p1 sz p2 /\ body_at code sz m bs p2 m' p'.
Proof.
  split.
  - intros H. destruct H as [p1 p2 p3 sz ts B U V E|p1 p2 p3 sz ts B U V E|p1 p2 p3 p4 sz fs B U U2 C].
    + exists 1, p1. split; [auto|]. split; [lia|]. exists sz, p2. split; [auto|]. left. eauto.
    + exists 3, p1. split; [auto|]. split; [lia|]. exists sz, p2. split; [auto|]. right. left. eauto.
    + exists 10, p1. split; [auto|]. split; [lia|]. exists sz, p2. split; [auto|]. right. right. eauto 6.
  - intros (code & p1 & B & _ & sz & p2 & U & [(-> & ts & V & E & ->)|[(-> & is & V & E & ->)|
      (-> & fs & p3 & U2 & C & ->)]]).
    + econstructor 1; eauto.
    + econstructor 2; eauto.
    + econstructor 3; eauto.
Qed.

Lemma reader_section m : reader 2 (one_section m) (fun bs p m' p' => section_at bs p m m' p').
Proof.
  unfold one_section.
  assert (C : reader 1 read_section_code (fun bs p c p' => byte_at bs p c p' /\ c <= 11)).
  { unfold read_section_code.
    pose proof (reader_bind 1 0 read_byte (fun c => if S_LAST <? c then dthrow DecodeError else dret c)
      byte_at (fun c _ p x p' => c <= 11 /\ x = c /\ p' = p) ltac:(lia) ltac:(lia) reader_byte) as H.
    eapply reader_ext; [|apply H].
    - intros bs p c p'. split.
      + intros (a & p1 & B & L & -> & ->). auto.
      + intros (B & L). exists c, p'. auto.
    - intros c. unfold S_LAST. destruct (Z.ltb_spec 11 c).
      + eapply reader_ext; [|apply reader_throw]. intros; lia.
      + eapply reader_ext; [|apply reader_ret]. cbn. intros; tauto.
    - apply mono_byte. }
  assert (K : forall code, reader 1 (let* sz := read_varu32 in
     if code =? S_TYPE then decode_type_section m sz
     else if code =? S_FUNC then decode_func_section m sz
     else if code =? S_CODE then decode_code_section m sz
     else dtrap Assertion)
     (fun bs p m' p' => exists sz p2, u32_at bs p sz p2 /\ body_at code sz m bs p2 m' p')).
  { intros code.
    pose proof (reader_bind 1 1 read_varu32 _ _ _ ltac:(lia) ltac:(lia) reader_u32
      (fun sz => reader_body code sz m) mono_u32) as H.
    eapply reader_weaken; [|exact H]. lia. }
  pose proof (reader_bind 1 1 _ _ _ _ ltac:(lia) ltac:(lia) C K) as H. cbn in H.
  eapply reader_ext; [|apply H].
  - intros bs p m' p'. cbn. rewrite section_at_body. split.
    + intros (c & p1 & (B & L) & sz & p2 & U & Bo). eauto 9.
    + intros (c & p1 & B & L & sz & p2 & U & Bo). eauto 9.
  - intros bs p a p' (B & _). now apply (mono_byte _ _ _ _ B).
Qed.

Lemma sections_unfold fuel m bs p : sections (S fuel) m bs p =
  if p =? len bs then Ok (m, p) else dbind (one_section m) (sections fuel) bs p.
Proof.
  cbn [sections]. unfold dbind at 1, at_end. cbn.
  fold (len bs). destruct (p =? len bs); [reflexivity|].
  unfold one_section, dbind.
  destruct (read_section_code bs p) as [[c q]|?|?|?|]; cbn; auto.
  destruct (read_varu32 bs q) as [[sz q2]|?|?|?|]; cbn; auto.
Qed.

Lemma sections_ok fuel : forall m bs p m' p', is_bytes bs -> 0 <= p <= len bs ->
  sections fuel m bs p = Ok (m', p') -> sections_at bs p m m'.
Proof.
  induction fuel as [|fuel IH]; intros m bs p m' p' Hb Hp E; [discriminate|].
  rewrite sections_unfold in E. destruct (Z.eqb_spec p (len bs)) as [->|N].
  - injection E as <- <-. constructor.
  - unfold dbind in E. destruct (bind_ok _ _ _ E) as ((m1 & p1) & E1 & E2). clear E.
    destruct (rd_ok _ _ _ (reader_section m) _ _ _ _ Hb Hp E1) as [S B].
    assert (0 <= p1 <= len bs) by lia. econstructor; eauto.
Qed.

Lemma section_mono bs p m m' p' : section_at bs p m m' p' -> p + 2 <= p' <= len bs.
Proof.
  intros H. apply section_at_body in H as (c & p1 & B & _ & sz & p2 & U & Bo).
  pose proof (mono_byte _ _ _ _ B). pose proof (mono_u32 _ _ _ _ U).
  pose proof (mono_body _ _ _ _ _ _ _ Bo).
  apply bytes_at_bound in B. unfold len in B at 1. cbn in B.
  destruct U as (g & U & Hs & _). apply bytes_at_bound in U. pose proof (leb_nonempty _ Hs).
  assert (1 <= len g) by (unfold len; destruct g; [congruence|cbn; lia]). lia.
Qed.

Lemma sections_complete fuel : forall m bs p m', is_bytes bs -> 0 <= p -> len bs - p < Z.of_nat fuel ->
  sections_at bs p m m' -> sections fuel m bs p = Ok (m', len bs).
Proof.
  induction fuel as [|fuel IH]; intros m bs p m' Hb Hp Hf H.
  - exfalso. inversion H as [|? ? m1 p1 ? S]; subst; [unfold len in *; lia|].
    apply section_mono in S. lia.
  - rewrite sections_unfold. destruct H as [m|p m m1 p1 m2 S H].
    + fold (len bs). now rewrite Z.eqb_refl.
    + pose proof (section_mono _ _ _ _ _ S). replace (p =? len bs) with false by lia.
      assert (Hp2 : 0 <= p <= len bs) by lia.
      unfold dbind. rewrite (rd_complete _ _ _ (reader_section m) _ _ _ _ Hb Hp2 S). cbn.
      apply IH; auto; lia.
Qed.

Lemma sections_tame fuel : forall m bs p, is_bytes bs -> 0 <= p <= len bs -> len bs - p < Z.of_nat fuel ->
  (exists x, sections fuel m bs p = Ok x) \/ sections fuel m bs p = Throw DecodeError \/
  exists t, sections fuel m bs p = Trap t.
Proof.
  induction fuel as [|fuel IH]; intros m bs p Hb Hp Hf; [lia|].
  rewrite sections_unfold. destruct (Z.eqb_spec p (len bs)); [eauto|].
  unfold dbind. destruct (rd_tame _ _ _ (reader_section m) bs p Hb Hp) as [((m1 & p1) & E)|[E|(t & E)]];
    rewrite E; cbn; eauto.
  destruct (rd_ok _ _ _ (reader_section m) _ _ _ _ Hb Hp E). apply IH; auto; lia.
Qed.

Lemma le_value_inj a : forall b, is_bytes a -> is_bytes b -> length a = length b ->
  le_value a = le_value b -> a = b.
Proof.
  induction a as [|x a IH]; intros [|y b] Ha Hb L E; cbn [length le_value] in *; try lia; auto.
  inversion Ha as [|? ? Hx Ha']; inversion Hb as [|? ? Hy Hb']; subst. unfold is_byte in *.
  assert (x = y) by lia. subst. f_equal. apply IH; auto; lia.
Qed.

Lemma read_raw_at n bs p g p' : is_bytes g -> length g = n -> is_bytes bs -> 0 <= p <= len bs ->
  (read_raw n bs p = Ok (le_value g, p') <-> bytes_at bs p g p').
Proof.
  intros Hg Hn Hb Hp. split.
  - intros E. rewrite read_raw_total in E by lia. fold (len bs) in E.
    destruct (Z.ltb_spec (len bs - Z.of_nat n) p) as [|H]; [discriminate|].
    injection E as E <-.
    destruct (split_pos bs p Hp) as (pre & post & -> & <-).
    rewrite Nat2Z.id in E. rewrite skipn_app, Nat.sub_diag, skipn_all in E. cbn [skipn app] in E.
    unfold len in *. rewrite app_length in *.
    apply le_value_inj in E; auto.
    + exists pre, (skipn n post). rewrite <- E at 1. rewrite firstn_skipn. repeat split. lia.
    + unfold is_bytes in *. rewrite Forall_app in Hb. rewrite <- (firstn_skipn n post) in Hb.
      rewrite Forall_app in Hb. tauto.
    + rewrite firstn_length. lia.
  - intros (pre & post & -> & <- & ->). rewrite read_raw_app by auto. reflexivity.
Qed.

Lemma read_raw_tame n bs p : 0 <= p ->
  (exists v, read_raw n bs p = Ok (v, p + Z.of_nat n) /\ p + Z.of_nat n <= len bs) \/
  read_raw n bs p = Throw DecodeError.
Proof.
  intros Hp. rewrite read_raw_total by auto. fold (len bs).
  destruct (Z.ltb_spec (len bs - Z.of_nat n) p); [right; reflexivity|left].
  eexists. split; [reflexivity|lia].
Qed.

Definition header_bytes : bytes := [97; 98; 97; 98; 1; 0; 0; 0].

Lemma bytes_at_split bs p a b p' : bytes_at bs p (a ++ b) p' <->
  exists q, bytes_at bs p a q /\ bytes_at bs q b p'.
Proof.
  split.
  - intros (pre & post & -> & <- & ->). exists (Z.of_nat (length pre) + Z.of_nat (length a)). split.
    + exists pre, (b ++ post). now rewrite <- app_assoc.
    + exists (pre ++ a), post. rewrite <- !app_assoc, !app_length. repeat split; lia.
  - intros (q & (pre & post & -> & <- & ->) & (pre2 & post2 & E & L & ->)).
    exists pre, post2. rewrite app_assoc in E.
    apply app_pos in E as [E1 E2]; [|rewrite app_length; lia].
    subst. rewrite <- app_assoc, app_length. repeat split; lia.
Qed.

Lemma compile_spec bs m : is_bytes bs -> (compile bs = Ok m <-> module_file bs m).
Proof.
  intros Hb. assert (Hp0 : 0 <= 0 <= len bs) by (unfold len; lia).
  change [97; 98; 97; 98; 1; 0; 0; 0] with ([97; 98; 97; 98] ++ [1; 0; 0; 0]).
  assert (Hg1 : is_bytes [97; 98; 97; 98]) by (repeat constructor; unfold is_byte; lia).
  assert (Hg2 : is_bytes [1; 0; 0; 0]) by (repeat constructor; unfold is_byte; lia).
  unfold compile, module_file, dbind, read_u32.
  change [97; 98; 97; 98; 1; 0; 0; 0] with ([97; 98; 97; 98] ++ [1; 0; 0; 0]).
  rewrite bytes_at_split. split.
  - intros E. apply bind_ok in E as ((m' & q) & E & E2). injection E2 as ->.
    apply bind_ok in E as ((v & p1) & E1 & E). 
    destruct (Z.eqb_spec v MODULE_MAGIC) as [->|]; cbn [negb] in E; [|discriminate].
    change MODULE_MAGIC with (le_value [97; 98; 97; 98]) in E1.
    apply read_raw_at in E1; auto. pose proof (bytes_at_bound _ _ _ _ E1) as B1.
    unfold len in B1 at 1. cbn [length] in B1.
    apply bind_ok in E as ((v & p2) & E3 & E).
    destruct (Z.eqb_spec v MODULE_VERSION) as [->|]; cbn [negb] in E; [|discriminate].
    change MODULE_VERSION with (le_value [1; 0; 0; 0]) in E3.
    apply read_raw_at in E3; auto; [|lia]. pose proof (bytes_at_bound _ _ _ _ E3) as B2.
    unfold len in B2 at 1. cbn [length] in B2.
    assert (p2 = 8) as -> by lia.
    apply sections_ok in E; auto; [|lia]. split; [eauto|auto].
  - intros ((p1 & B1 & B2) & S).
    pose proof (bytes_at_bound _ _ _ _ B1) as L1. pose proof (bytes_at_bound _ _ _ _ B2) as L2.
    unfold len in L1 at 1. cbn [length] in L1.
    apply read_raw_at with (n := 4%nat) in B1; auto.
    apply read_raw_at with (n := 4%nat) in B2; auto; [|lia].
    rewrite B1. cbn [bind]. change (le_value [97; 98; 97; 98] =? MODULE_MAGIC) with true. cbn [negb].
    rewrite B2. cbn [bind]. change (le_value [1; 0; 0; 0] =? MODULE_VERSION) with true. cbn [negb].
        rewrite (sections_complete (Datatypes.S (length bs)) (mkModule [] [] []) bs 8 m Hb ltac:(lia)
      ltac:(unfold len; lia) S).
    reflexivity.
Qed.

Lemma compile_tame bs : is_bytes bs ->
  (exists m, compile bs = Ok m) \/ compile bs = Throw DecodeError \/ exists t, compile bs = Trap t.
Proof.
  intros Hb. unfold compile, dbind, read_u32.
  destruct (read_raw_tame 4 bs 0 ltac:(lia)) as [(v & -> & B)| ->]; cbn [bind]; [|auto].
  destruct (v =? MODULE_MAGIC); cbn [negb]; [|unfold dthrow; cbn; auto].
  destruct (read_raw_tame 4 bs (0 + Z.of_nat 4) ltac:(lia)) as [(w & -> & B2)| ->]; cbn [bind]; [|auto].
  destruct (w =? MODULE_VERSION); cbn [negb]; [|unfold dthrow; cbn; auto].
  destruct (sections_tame (Datatypes.S (length bs)) (mkModule [] [] []) bs (0 + Z.of_nat 4 + Z.of_nat 4) Hb ltac:(lia)
    ltac:(unfold len; lia)) as [((m & q) & ->)|[->|(t & ->)]]; cbn; eauto.
Qed.

(** * The writer *)

Ltac apps := repeat (rewrite <- app_assoc || cbn [app]); reflexivity.

Lemma append_varuint32_ok v : exists g, append_varuint32 v = Ok g /\ is_bytes g /\
  (1 <= length g <= 5)%nat /\
  (0 <= v < 2 ^ 32 -> forall pre post, u32_at (pre ++ g ++ post) (len pre) v (len pre + len g)).
Proof.
  destruct (append_varuint32_spec v) as (g & E & Hs & Hv & Hl & _). exists g. split; [auto|]. split.
  { clear -Hs. induction Hs; constructor; unfold is_byte; try lia; auto. }
  split; [lia|]. intros B pre post. exists g. split; [|split; [auto|split; [lia|]]].
  - exists pre, post. auto.
  - rewrite Hv, !Z.mod_small; auto. now apply Z.mod_pos_bound.
Qed.

Lemma append_all_ok {A} (f : A -> outcome bytes) l :
  (forall x, In x l -> exists g, f x = Ok g /\ is_bytes g /\ (1 <= length g)%nat) ->
  exists gs, append_all f l = Ok gs /\ is_bytes gs /\ (length l <= length gs)%nat.
Proof.
  induction l as [|x l IH]; intros H.
  - exists []. repeat split; [constructor|auto].
  - destruct (H x (or_introl eq_refl)) as (g & E & Hb & Hl).
    destruct IH as (gs & Es & Hbs & Hls); [intros; apply H; now right|].
    cbn. rewrite E, Es. cbn. eexists. split; [reflexivity|]. split.
    + apply Forall_app. auto.
    + rewrite app_length. lia.
Qed.

Lemma seq_write {A} (f : A -> outcome bytes) (E : bytes -> Z -> A -> Z -> Prop) l :
  (forall x g pre post, In x l -> f x = Ok g -> len (pre ++ g ++ post) < 2 ^ 32 ->
     E (pre ++ g ++ post) (len pre) x (len pre + len g)) ->
  forall gs pre post, append_all f l = Ok gs -> len (pre ++ gs ++ post) < 2 ^ 32 ->
    seq_at (E (pre ++ gs ++ post)) (len pre) l (len pre + len gs).
Proof.
  induction l as [|x l IH]; intros H gs pre post Eg L.
  - injection Eg as <-. replace (len pre + len []) with (len pre) by (unfold len; cbn; lia). constructor.
  - cbn in Eg. apply bind_ok in Eg as (g & E1 & Eg). apply bind_ok in Eg as (gs' & E2 & Eg).
    injection Eg as <-. rewrite <- app_assoc in *. econstructor.
    + apply H; [now left|auto|auto].
    + replace (pre ++ g ++ gs' ++ post) with ((pre ++ g) ++ gs' ++ post) in * by now rewrite <- app_assoc.
      replace (len pre + len g) with (len (pre ++ g)) by (unfold len; rewrite app_length; lia).
      replace (len pre + len (g ++ gs')) with (len (pre ++ g) + len gs')
        by (unfold len; rewrite !app_length; lia).
      apply IH; auto. intros. apply H; auto. now right.
Qed.

Lemma len_app a b : len (a ++ b) = len a + len b.
Proof. unfold len. rewrite app_length. lia. Qed.
Lemma len_cons x a : len (x :: a) = 1 + len a.
Proof. unfold len. cbn [length]. lia. Qed.
Lemma len_nonneg a : 0 <= len a.
Proof. unfold len. lia. Qed.

(** Plain bytes. *)
Lemma bytes_seq g : forall pre post, seq_at (byte_at (pre ++ g ++ post)) (len pre) g (len pre + len g).
Proof.
  induction g as [|b g IH]; intros pre post.
  - replace (len pre + len []) with (len pre) by (unfold len; cbn; lia). constructor.
  - econstructor.
    + exists pre, (g ++ post). repeat split.
    + specialize (IH (pre ++ [b]) post). rewrite <- app_assoc in IH. cbn [app] in IH.
      change ((b :: g) ++ post) with (b :: g ++ post).
      rewrite len_app in IH. replace (len [b]) with 1 in IH by reflexivity.
      replace (len pre + len (b :: g)) with (len pre + 1 + len g) by (unfold len; cbn [length]; lia).
      exact IH.
Qed.

Lemma vec_bytes ts g pre post : append_varuint32 (size ts) = Ok g ->
  len (pre ++ g ++ ts ++ post) < 2 ^ 32 ->
  vec_at (pre ++ g ++ ts ++ post) (byte_at (pre ++ g ++ ts ++ post)) (len pre) ts
    (len pre + len g + len ts).
Proof.
  intros E L. destruct (append_varuint32_ok (size ts)) as (g' & E' & _ & _ & U).
  rewrite E in E'. injection E' as <-. exists (len pre + len g). split.
  - apply U. rewrite !len_app in L. pose proof (len_nonneg pre). pose proof (len_nonneg g).
    pose proof (len_nonneg post). unfold len, size in *. lia.
  - pose proof (bytes_seq ts (pre ++ g) post) as S. rewrite <- app_assoc in S. now rewrite len_app in S.
Qed.

Lemma type_write t g pre post : append_type t = Ok g -> len (pre ++ g ++ post) < 2 ^ 32 ->
  type_at (pre ++ g ++ post) (len pre) t (len pre + len g).
Proof.
  intros E L. unfold append_type in E. inv_ok.
  set (bs := pre ++ _ ++ post) in *.
  exists (len pre + 1), (len pre + 1 + len x + len (ft_args t)). split; [|split].
  - subst bs. exists pre, ((x ++ ft_args t ++ x0 ++ ft_rets t) ++ post). repeat split.
  - pose proof (vec_bytes (ft_args t) x (pre ++ [FUNC]) (x0 ++ ft_rets t ++ post) Hm) as V.
    replace ((pre ++ [FUNC]) ++ x ++ ft_args t ++ x0 ++ ft_rets t ++ post) with bs in V
      by (subst bs; apps).
    rewrite len_app in V. apply V; auto.
  - pose proof (vec_bytes (ft_rets t) x0 (pre ++ [FUNC] ++ x ++ ft_args t) post Hm0) as V.
    replace ((pre ++ [FUNC] ++ x ++ ft_args t) ++ x0 ++ ft_rets t ++ post) with bs in V
      by (subst bs; apps).
    specialize (V L). rewrite !len_app in V. rewrite len_cons, !len_app.
    replace (len [FUNC]) with 1 in * by reflexivity. rewrite !Z.add_assoc in *. exact V.
Qed.

Lemma append_type_ok t : type_fits t -> exists g, append_type t = Ok g /\ is_bytes g /\ (1 <= length g)%nat.
Proof.
  intros [F1 F2]. unfold append_type.
  destruct (append_varuint32_ok (size (ft_args t))) as (a & -> & Ha & _).
  destruct (append_varuint32_ok (size (ft_rets t))) as (r & -> & Hr & _). cbn.
  eexists. split; [reflexivity|]. split; [|cbn; lia].
  constructor; [unfold is_byte, FUNC; lia|]. unfold is_bytes in *. rewrite !Forall_app. auto.
Qed.

Lemma write_insn_code i : insn_fits i -> write_insn i = insn_code i /\ is_bytes (write_insn i).
Proof.
  unfold is_bytes.
  destruct i; cbn; intros H; unfold is_byte in *; rewrite ?Z.mod_small by tauto;
    (split; [reflexivity|]); repeat constructor; unfold is_byte; try lia.
Qed.

Lemma write_body_code is : Forall insn_fits is ->
  write_body is = flat_map insn_code is /\ is_bytes (write_body is).
Proof.
  induction 1 as [|i is Hi _ [IH1 IH2]]; [split; [reflexivity|constructor]|].
  destruct (write_insn_code i Hi) as [E B]. unfold write_body in *. cbn. split.
  - now rewrite E, IH1.
  - apply Forall_app. auto.
Qed.

Lemma code_append_ok n f : func_fits n f ->
  exists g, code_append_to f = Ok g /\ is_bytes g /\ (1 <= length g)%nat.
Proof.
  intros (_ & _ & F). unfold code_append_to.
  destruct (append_varuint32_ok (fn_nregs f)) as (a & -> & Ha & _). cbn [bind].
  match goal with |- context[append_varuint32 ?v] =>
    destruct (append_varuint32_ok v) as (s & -> & Hs & Hl & _) end. cbn [bind].
  eexists. split; [reflexivity|]. rewrite app_length. split; [|lia].
  destruct (write_body_code _ F) as [_ B]. unfold is_bytes in *. rewrite !Forall_app. auto.
Qed.

Lemma code_write ts f g pre post : func_fits (length ts) f -> code_append_to f = Ok g ->
  len (pre ++ g ++ post) < 2 ^ 32 ->
  exists c, code_at (pre ++ g ++ post) ts (len pre) (fn_type_idx f) c (len pre + len g) /\
    same_func (pre ++ g ++ post) ts f c /\
    bytes_at (pre ++ g ++ post) (f_body c) (flat_map insn_code (fn_insns f)) (len pre + len g) /\
    f_var_nregs c = fn_nregs f.
Proof.
  intros (F1 & F2 & F3) E L. unfold code_append_to in E. inv_ok.
  destruct (write_body_code _ F3) as [Ew _]. rewrite Ew in *. clear Ew.
  set (code := flat_map insn_code (fn_insns f)) in *.
  destruct (append_varuint32_ok (fn_nregs f)) as (a & Ea & _ & _ & Ua).
  rewrite Hm in Ea. injection Ea as <-.
  destruct (append_varuint32_ok (size (x ++ code))) as (s & Es & _ & _ & Us).
  rewrite Hm0 in Es. injection Es as <-.
  destruct (nth_error ts (Z.to_nat (fn_type_idx f))) as [t|] eqn:Et.
  2: { apply nth_error_None in Et. lia. }
  set (bs := pre ++ (x0 ++ x ++ code) ++ post) in *.
  assert (Eb : bs = pre ++ x0 ++ (x ++ code) ++ post) by (subst bs; apps).
  assert (Hb : bytes_at bs (len pre + len x0 + len x) code (len pre + len x0 + len x + len code)).
  { exists (pre ++ x0 ++ x), post. split; [subst bs; apps|].
    split; [|reflexivity]. change (len (pre ++ x0 ++ x) = len pre + len x0 + len x). rewrite !len_app. lia. }
  exists (mkFunc (fn_type_idx f) (Z.of_nat (length ts)) (len pre + len x0 + len x) (fn_nregs f)
     (slots_of (ft_args t)) (slots_of (ft_rets t)) ((fn_nregs f + slots_of (ft_args t)) mod 2 ^ 32)).
  split.
  - exists (size (x ++ code)), (len pre + len x0), t. cbn. repeat split; auto.
    + rewrite Eb. apply Us. rewrite Eb, !len_app in L. pose proof (len_nonneg pre).
      pose proof (len_nonneg x0). pose proof (len_nonneg post). unfold size.
      fold (len (x ++ code)). rewrite len_app. pose proof (len_nonneg x). pose proof (len_nonneg code). lia.
    + replace bs with ((pre ++ x0) ++ x ++ (code ++ post)) by (subst bs; apps).
      rewrite <- len_app. apply Ua. auto.
    + unfold size. fold (len (x ++ code)). rewrite !len_app. lia.
    + fold (len bs). rewrite Eb, !len_app. pose proof (len_nonneg post). lia.
  - split; [exists t; eexists; cbn; repeat split; eauto|]. cbn [f_body f_var_nregs]. split; [|reflexivity].
    fold code. replace (len pre + len (x0 ++ x ++ code)) with (len pre + len x0 + len x + len code) by (rewrite !len_app; lia).
    exact Hb.
Qed.

Lemma codes_write ts fns : Forall (func_fits (length ts)) fns ->
  forall gs pre post, append_all code_append_to fns = Ok gs -> len (pre ++ gs ++ post) < 2 ^ 32 ->
  exists fs, codes_at (pre ++ gs ++ post) ts (len pre) (map fn_type_idx fns) fs (len pre + len gs) /\
    Forall2 (same_func (pre ++ gs ++ post) ts) fns fs /\
    stand (pre ++ gs ++ post) (len pre) fns fs (len pre + len gs).
Proof.
  induction 1 as [|f fns Hf _ IH]; intros gs pre post Eg L.
  - injection Eg as <-. exists []. replace (len pre + len []) with (len pre) by (unfold len; cbn; lia).
    split; [constructor|]. split; constructor.
  - cbn in Eg. apply bind_ok in Eg as (g & E1 & Eg). apply bind_ok in Eg as (gs' & E2 & Eg).
    injection Eg as <-. rewrite <- app_assoc in *.
    destruct (code_write ts f g pre (gs' ++ post) Hf E1 L) as (c & C1 & C2 & C3 & C4).
    replace (pre ++ g ++ gs' ++ post) with ((pre ++ g) ++ gs' ++ post) in * by now rewrite <- app_assoc.
    destruct (IH gs' (pre ++ g) post E2 L) as (fs & D1 & D2 & D3).
    exists (c :: fs). rewrite len_app in *. rewrite Z.add_assoc.
    split; [|split; [constructor; auto|]].
    + cbn [map]. econstructor; [exact C1|exact D1].
    + destruct C1 as (sz & p1 & t & U1 & U2 & _). rewrite C4 in U2. econstructor; eauto.
Qed.

(** One written section. *)
Lemma section_write {A} code (entry : A -> outcome bytes) l g :
  l <> [] -> append_section code entry l = Ok g ->
  (forall x, In x l -> exists g, entry x = Ok g /\ is_bytes g /\ (1 <= length g)%nat) ->
  exists s n es, g = [code] ++ s ++ n ++ es /\ append_all entry l = Ok es /\
    forall pre post, len (pre ++ g ++ post) < 2 ^ 32 ->
      byte_at (pre ++ g ++ post) (len pre) code (len pre + 1) /\
      u32_at (pre ++ g ++ post) (len pre + 1) (len n + len es) (len pre + 1 + len s) /\
      u32_at (pre ++ g ++ post) (len pre + 1 + len s) (Z.of_nat (length l)) (len pre + 1 + len s + len n).
Proof.
  intros Hne E He.
  assert (E' : (do n <- append_varuint32 (Z.of_nat (length l)); do es <- append_all entry l;
    do s <- append_varuint32 (size (n ++ es)); Ok ([code] ++ s ++ n ++ es)) = Ok g)
    by (destruct l; [congruence|exact E]). clear E.
  apply bind_ok in E' as (x & Hm & E'). apply bind_ok in E' as (x1 & Hm0 & E').
  apply bind_ok in E' as (x2 & Hm1 & E'). assert (g = [code] ++ x2 ++ x ++ x1) as -> by congruence.
  clear E'.
  destruct (append_all_ok entry l He) as (es & Ees & _ & Hl). rewrite Hm0 in Ees. injection Ees as <-.
  exists x2, x, x1. split; [reflexivity|]. split; [auto|]. intros pre post L.
  destruct (append_varuint32_ok (Z.of_nat (length l))) as (n & En & _ & _ & Un).
  rewrite Hm in En. injection En as <-.
  destruct (append_varuint32_ok (size (x ++ x1))) as (s & Es & _ & _ & Us).
  rewrite Hm1 in Es. injection Es as <-.
  assert (L2 : len (x ++ x1) < 2 ^ 32 /\ len x1 < 2 ^ 32).
  { rewrite !len_app in L. pose proof (len_nonneg pre). pose proof (len_nonneg x2).
    pose proof (len_nonneg post). pose proof (len_nonneg [code]). rewrite len_app.
    pose proof (len_nonneg x). pose proof (len_nonneg x1). lia. }
  repeat split.
  - exists pre, ((x2 ++ x ++ x1) ++ post). repeat split.
  - replace (pre ++ ([code] ++ x2 ++ x ++ x1) ++ post) with ((pre ++ [code]) ++ x2 ++ ((x ++ x1) ++ post))
      by apps.
    rewrite <- len_app. replace (len pre + 1) with (len (pre ++ [code])) by (rewrite len_app; reflexivity).
    apply Us. unfold size. fold (len (x ++ x1)). pose proof (len_nonneg (x ++ x1)). lia.
  - replace (pre ++ ([code] ++ x2 ++ x ++ x1) ++ post)
      with ((pre ++ [code] ++ x2) ++ x ++ (x1 ++ post)) by apps.
    replace (len pre + 1 + len x2) with (len (pre ++ [code] ++ x2))
      by (rewrite !len_app; replace (len [code]) with 1 by reflexivity; lia).
    apply Un. unfold len in L2. lia.
Qed.

Lemma append_section_ok {A} code (entry : A -> outcome bytes) l : is_byte code ->
  (forall x, In x l -> exists g, entry x = Ok g /\ is_bytes g /\ (1 <= length g)%nat) ->
  exists g, append_section code entry l = Ok g /\ is_bytes g.
Proof.
  intros Hc He. unfold append_section. destruct (append_all_ok entry l He) as (es & Ees & Hb & _).
  destruct l as [|x l]; [exists []; split; [auto|constructor]|].
  destruct (append_varuint32_ok (Z.of_nat (length (x :: l)))) as (n & -> & Hn & _).
  rewrite Ees. cbn [bind].
  destruct (append_varuint32_ok (size (n ++ es))) as (s & -> & Hs & _). cbn [bind].
  eexists. split; [reflexivity|]. constructor; [auto|]. unfold is_bytes in *. rewrite !Forall_app. auto.
Qed.

Lemma write_spec m : fits m -> exists bs, write m = Ok bs /\ is_bytes bs /\
  (len bs < 2 ^ 32 -> exists fs,
     module_file bs (mkModule (mn_types m) (map fn_type_idx (mn_funcs m)) fs) /\
     Forall2 (same_func bs (mn_types m)) (mn_funcs m) fs /\
     exists p, stand bs p (mn_funcs m) fs (len bs)).
Proof.
  intros [Ft Ff]. unfold write.
  assert (HT : forall x, In x (mn_types m) -> exists g, append_type x = Ok g /\ is_bytes g /\ (1 <= length g)%nat).
  { intros x Hx. apply append_type_ok. rewrite Forall_forall in Ft. auto. }
  assert (HF : forall x, In x (map fn_type_idx (mn_funcs m)) ->
     exists g, append_varuint32 x = Ok g /\ is_bytes g /\ (1 <= length g)%nat).
  { intros x _. destruct (append_varuint32_ok x) as (g & ? & ? & ? & _). exists g. split; [auto|]. split; [auto|lia]. }
  assert (HC : forall x, In x (mn_funcs m) -> exists g, code_append_to x = Ok g /\ is_bytes g /\ (1 <= length g)%nat).
  { intros x Hx. rewrite Forall_forall in Ff. eapply code_append_ok; eauto. }
  destruct (append_section_ok S_TYPE _ _ ltac:(unfold is_byte, S_TYPE; lia) HT) as (gt & Et & Bt).
  destruct (append_section_ok S_FUNC _ _ ltac:(unfold is_byte, S_FUNC; lia) HF) as (gf & Ef & Bf).
  destruct (append_section_ok S_CODE _ _ ltac:(unfold is_byte, S_CODE; lia) HC) as (gc & Ec & Bc).
  rewrite Et, Ef, Ec. cbn [bind]. eexists. split; [reflexivity|].
  change (le_bytes 4 MODULE_MAGIC ++ le_bytes 4 MODULE_VERSION ++ gt ++ gf ++ gc)
    with (header_bytes ++ gt ++ gf ++ gc).
  split.
  { apply Forall_app. split; [repeat constructor; unfold is_byte; lia|].
    unfold is_bytes in *. rewrite !Forall_app. auto. }
  intros L.
  assert (Hh : bytes_at (header_bytes ++ gt ++ gf ++ gc) 0 header_bytes 8)
    by (exists [], (gt ++ gf ++ gc); repeat split).
  set (bs := header_bytes ++ gt ++ gf ++ gc) in *.
  (* the code section *)
  assert (Sc : exists fs, sections_at bs (8 + len gt + len gf)
      (mkModule (mn_types m) (map fn_type_idx (mn_funcs m)) [])
      (mkModule (mn_types m) (map fn_type_idx (mn_funcs m)) fs) /\
      Forall2 (same_func bs (mn_types m)) (mn_funcs m) fs /\ exists p, stand bs p (mn_funcs m) fs (len bs)).
  { destruct (mn_funcs m) as [|f0 fl] eqn:Em.
    - injection Ec as <-. exists []. split; [|split; [constructor|exists (len bs); constructor]].
      replace (8 + len gt + len gf) with (Z.of_nat (length bs)); [constructor|].
      fold (len bs). subst bs. rewrite !len_app. replace (len header_bytes) with 8 by reflexivity.
      replace (len []) with 0 by reflexivity. lia.
    - rewrite <- Em in *. assert (Hne : mn_funcs m <> []) by congruence. clear Em f0 fl.
      destruct (section_write S_CODE _ _ _ Hne Ec HC) as (s & n & es & -> & Ees & W).
      set (g := [S_CODE] ++ s ++ n ++ es) in *.
      specialize (W (header_bytes ++ gt ++ gf) []). rewrite app_nil_r in W.
      replace ((header_bytes ++ gt ++ gf) ++ g) with bs in W by (subst bs; apps).
      specialize (W L). destruct W as (W1 & W2 & W3).
      replace (len (header_bytes ++ gt ++ gf)) with (8 + len gt + len gf) in *
        by (rewrite !len_app; replace (len header_bytes) with 8 by reflexivity; lia).
      destruct (codes_write _ _ Ff es (header_bytes ++ gt ++ gf ++ [S_CODE] ++ s ++ n) [] Ees) as (fs & C1 & C2 & C3).
      { rewrite app_nil_r. replace ((header_bytes ++ gt ++ gf ++ [S_CODE] ++ s ++ n) ++ es) with bs; auto.
        subst bs g. apps. }
      replace ((header_bytes ++ gt ++ gf ++ [S_CODE] ++ s ++ n) ++ es ++ []) with bs in C1, C2, C3
        by (subst bs g; rewrite app_nil_r; apps).
      exists fs. split; [|split; [auto|]].
      2: { eexists. replace (len bs) with (len (header_bytes ++ gt ++ gf ++ [S_CODE] ++ s ++ n) + len es); [exact C3|].
           subst bs g. rewrite !len_app. lia. }
      apply secs_more with (m1 := mkModule (mn_types m) (map fn_type_idx (mn_funcs m)) fs)
        (p1 := Z.of_nat (length bs)); [|constructor].
      replace fs with ([] ++ fs) at 1 by reflexivity.
      eapply (sec_code bs _ (mkModule (mn_types m) (map fn_type_idx (mn_funcs m)) [])).
      + exact W1.
      + exact W2.
      + cbn [m_func_types]. rewrite map_length. exact W3.
      + cbn [m_func_types m_types].
        replace (8 + len gt + len gf + 1 + len s + len n) with
          (len (header_bytes ++ gt ++ gf ++ [S_CODE] ++ s ++ n))
          by (rewrite !len_app; replace (len header_bytes) with 8 by reflexivity;
              replace (len [S_CODE]) with 1 by reflexivity; lia).
        replace (Z.of_nat (length bs)) with
          (len (header_bytes ++ gt ++ gf ++ [S_CODE] ++ s ++ n) + len es); [exact C1|].
        fold (len bs). subst bs g. rewrite !len_app. lia. }
  destruct Sc as (fs & Sc & HS). exists fs. split; [|auto]. split; [exact Hh|].
  (* the function section *)
  assert (Sf : sections_at bs (8 + len gt) (mkModule (mn_types m) [] [])
      (mkModule (mn_types m) (map fn_type_idx (mn_funcs m)) fs)).
  { destruct (mn_funcs m) as [|f0 fl] eqn:Em.
    - cbn [map] in *. injection Ef as <-. replace (len []) with 0 in Sc by reflexivity.
      rewrite Z.add_0_r in Sc. exact Sc.
    - rewrite <- Em in *.
      assert (Hne : map fn_type_idx (mn_funcs m) <> []) by (rewrite Em; discriminate). clear Em f0 fl.
      destruct (section_write S_FUNC _ _ _ Hne Ef HF) as (s & n & es & -> & Ees & W).
      set (g := [S_FUNC] ++ s ++ n ++ es) in *.
      specialize (W (header_bytes ++ gt) gc).
      replace ((header_bytes ++ gt) ++ g ++ gc) with bs in W by (subst bs; apps).
      specialize (W L). destruct W as (W1 & W2 & W3).
      replace (len (header_bytes ++ gt)) with (8 + len gt) in *
        by (rewrite !len_app; replace (len header_bytes) with 8 by reflexivity; lia).
      eapply secs_more; [|exact Sc].
      replace (map fn_type_idx (mn_funcs m)) with ([] ++ map fn_type_idx (mn_funcs m)) by reflexivity.
      eapply (sec_func bs _ (mkModule (mn_types m) [] []) _ _ (8 + len gt + len g)); [exact W1|exact W2| |].
      + exists (8 + len gt + 1 + len s + len n). split; [exact W3|].
        pose proof (seq_write append_varuint32 u32_at (map fn_type_idx (mn_funcs m))) as SW.
        assert (SP : forall x g pre post, In x (map fn_type_idx (mn_funcs m)) ->
           append_varuint32 x = Ok g -> len (pre ++ g ++ post) < 2 ^ 32 ->
           u32_at (pre ++ g ++ post) (len pre) x (len pre + len g)).
        { intros x g' pre post Hx Eg _. destruct (append_varuint32_ok x) as (g2 & E2 & _ & _ & U).
          rewrite Eg in E2. injection E2 as <-. apply U.
          apply in_map_iff in Hx as (f & <- & Hf). rewrite Forall_forall in Ff.
          destruct (Ff f Hf) as (B & _).
          assert (Hty : mn_types m <> []) by (intros X; rewrite X in B; cbn in B; lia).
          destruct (section_write S_TYPE _ _ _ Hty Et HT) as (s' & n' & es' & Egt & Ees' & _).
          destruct (append_all_ok append_type _ HT) as (e2 & E2 & _ & Hl).
          rewrite Ees' in E2. injection E2 as <-.
          assert (len es' <= len bs).
          { subst bs. rewrite Egt, !len_app. pose proof (len_nonneg header_bytes). pose proof (len_nonneg [S_TYPE]).
            pose proof (len_nonneg s'). pose proof (len_nonneg n'). pose proof (len_nonneg g).
            pose proof (len_nonneg gc). lia. }
          unfold len in *. lia. }
        specialize (SW SP es (header_bytes ++ gt ++ [S_FUNC] ++ s ++ n) gc Ees).
        replace ((header_bytes ++ gt ++ [S_FUNC] ++ s ++ n) ++ es ++ gc) with bs in SW
          by (subst bs g; apps).
        specialize (SW L).
        replace (8 + len gt + 1 + len s + len n) with (len (header_bytes ++ gt ++ [S_FUNC] ++ s ++ n))
          by (rewrite !len_app; replace (len header_bytes) with 8 by reflexivity;
              replace (len [S_FUNC]) with 1 by reflexivity; lia).
        replace (8 + len gt + len g) with (len (header_bytes ++ gt ++ [S_FUNC] ++ s ++ n) + len es);
          [exact SW|].
        subst g. rewrite !len_app. replace (len header_bytes) with 8 by reflexivity. lia.
      + subst g. rewrite !len_app. replace (len [S_FUNC]) with 1 by reflexivity. lia. }
  (* the type section *)
  destruct (mn_types m) as [|t0 tl] eqn:Em.
  - injection Et as <-. replace (len []) with 0 in Sf by reflexivity. rewrite Z.add_0_r in Sf. exact Sf.
  - rewrite <- Em in *. assert (Hne : mn_types m <> []) by congruence. clear Em t0 tl.
    destruct (section_write S_TYPE _ _ _ Hne Et HT) as (s & n & es & -> & Ees & W).
    set (g := [S_TYPE] ++ s ++ n ++ es) in *.
    specialize (W header_bytes (gf ++ gc)). fold bs in W. specialize (W L). destruct W as (W1 & W2 & W3).
    replace (len header_bytes) with 8 in * by reflexivity.
    eapply secs_more; [|exact Sf].
    replace (mn_types m) with ([] ++ mn_types m) at 2 by reflexivity.
    eapply (sec_type bs _ (mkModule [] [] []) _ _ (8 + len g)); [exact W1|exact W2| |].
    + exists (8 + 1 + len s + len n). split; [exact W3|].
      pose proof (seq_write append_type type_at (mn_types m)
        (fun x g pre post _ E1 L1 => type_write x g pre post E1 L1)
        es (header_bytes ++ [S_TYPE] ++ s ++ n) (gf ++ gc) Ees) as SW.
      replace ((header_bytes ++ [S_TYPE] ++ s ++ n) ++ es ++ gf ++ gc) with bs in SW
        by (subst bs g; apps).
      specialize (SW L).
      replace (8 + 1 + len s + len n) with (len (header_bytes ++ [S_TYPE] ++ s ++ n))
        by (rewrite !len_app; replace (len header_bytes) with 8 by reflexivity;
            replace (len [S_TYPE]) with 1 by reflexivity; lia).
      replace (8 + len g) with (len (header_bytes ++ [S_TYPE] ++ s ++ n) + len es); [exact SW|].
      subst g. rewrite !len_app. replace (len header_bytes) with 8 by reflexivity. lia.
    + subst g. rewrite !len_app. replace (len [S_TYPE]) with 1 by reflexivity. lia.
Qed.

(** * Traps *)

Lemma reader_no_trap_byte bs p t : is_bytes bs -> 0 <= p <= len bs -> read_byte bs p <> Trap t.
Proof.
  intros Hb Hp. destruct (split_pos bs p Hp) as (pre & post & -> & <-).
  destruct post as [|b post].
  - rewrite app_nil_r, read_byte_end. discriminate.
  - rewrite read_byte_cons. discriminate.
Qed.

Lemma reader_no_trap_u32 bs p t : is_bytes bs -> 0 <= p <= len bs -> read_varu32 bs p <> Trap t.
Proof.
  intros Hb Hp. destruct (split_pos bs p Hp) as (pre & post & -> & <-).
  assert (Hpost : is_bytes post) by (unfold is_bytes in *; rewrite Forall_app in Hb; tauto).
  destruct (leb_split 5 post Hpost) as [(g & r & -> & Hs & Hl)|(g & r & -> & Hg & Hl & He)].
  - rewrite read_varu32_ok by auto. discriminate.
  - rewrite read_varu32_throw by auto. discriminate.
Qed.

(** A reader that never traps inside the bytes. *)
Definition trapless {A} (r : dec A) :=
  forall bs p t, is_bytes bs -> 0 <= p <= len bs -> r bs p <> Trap t.

Lemma trapless_bind {A B} s (r : dec A) R (f : A -> dec B) : 0 <= s -> reader s r R -> trapless r ->
  (forall a, trapless (f a)) -> trapless (dbind r f).
Proof.
  intros Hs Hr T1 T2 bs p t Hb Hp E. unfold dbind in E.
  destruct (r bs p) as [[a q]| | | |] eqn:Er; cbn in E; try discriminate.
  - destruct (rd_ok _ _ _ Hr _ _ _ _ Hb Hp Er). eapply T2; [| |exact E]; auto. lia.
  - eapply T1; eauto.
Qed.

Lemma trapless_ret {A} (a : A) : trapless (dret a).
Proof. intros bs p t _ _. discriminate. Qed.
Lemma trapless_throw {A} : trapless (@dthrow A DecodeError).
Proof. intros bs p t _ _. discriminate. Qed.

Lemma trapless_n {A} (r : dec A) R n : reader 0 r R -> mono R -> trapless r -> trapless (read_n n r).
Proof.
  intros Hr M T. induction n as [|n IH]; cbn [read_n]; [apply trapless_ret|].
  apply (trapless_bind 0 _ R); auto; [lia|]. intros a.
  eapply trapless_bind; [|apply (reader_n r R n Hr M)|exact IH|]; [lia|].
  intros; apply trapless_ret.
Qed.

Lemma trapless_type : trapless read_type.
Proof.
  unfold read_type. eapply trapless_bind; [|apply reader_byte| |]; [lia|exact reader_no_trap_byte|].
  intros v. destruct (negb (v =? FUNC)); [apply trapless_throw|].
  pose proof (reader_weaken 1 0 _ _ ltac:(lia) reader_byte) as RB.
  eapply trapless_bind; [|apply reader_u32| |]; [lia|exact reader_no_trap_u32|]. intros na.
  eapply trapless_bind; [|apply (reader_n _ _ (Z.to_nat na) RB mono_byte)| |]; [lia| |].
  { apply (trapless_n _ byte_at); auto using mono_byte. exact reader_no_trap_byte. }
  intros args.
  eapply trapless_bind; [|apply reader_u32| |]; [lia|exact reader_no_trap_u32|]. intros nb.
  eapply trapless_bind; [|apply (reader_n _ _ (Z.to_nat nb) RB mono_byte)| |]; [lia| |].
  { apply (trapless_n _ byte_at); auto using mono_byte. exact reader_no_trap_byte. }
  intros; apply trapless_ret.
Qed.

Lemma reader_position : reader 0 position (fun bs p q p' => q = p /\ p' = p).
Proof.
  constructor; unfold position.
  - intros bs p a p' _ Hp [= <- <-]. split; [auto|lia].
  - intros bs p a p' _ _ [-> ->]. reflexivity.
  - eauto.
Qed.
Lemma trapless_position : trapless position.
Proof. intros bs p t _ _. discriminate. Qed.

Lemma trapless_sized {A} (r : dec A) R sz (k : list A -> module) : reader 0 r R -> mono R -> trapless r ->
  trapless (let* start := position in let* n := read_varu32 in
            let* xs := read_n (Z.to_nat n) r in let* fin := position in
            if negb (fin - start =? sz) then dthrow DecodeError else dret (k xs)).
Proof.
  intros Hr M T.
  eapply trapless_bind; [|apply reader_position|apply trapless_position|]; [lia|]. intros st.
  eapply trapless_bind; [|apply reader_u32| |]; [lia|exact reader_no_trap_u32|]. intros n.
  eapply trapless_bind; [|apply (reader_n _ _ (Z.to_nat n) Hr M)| |]; [lia| |].
  { eapply trapless_n; eauto. }
  intros xs. eapply trapless_bind; [|apply reader_position|apply trapless_position|]; [lia|].
  intros fin. destruct (negb _); [apply trapless_throw|apply trapless_ret].
Qed.

Lemma codes_trap m n : forall i bs p t, (i + n = length (m_func_types m))%nat ->
  is_bytes bs -> 0 <= p <= len bs ->
  (decode_codes m i n bs p = Trap t <->
   exists tis ti tis' fs p4 esz p5 nr p6,
     skipn i (m_func_types m) = tis ++ ti :: tis' /\ codes_at bs (m_types m) p tis fs p4 /\
     u32_at bs p4 esz p5 /\ u32_at bs p5 nr p6 /\
     ((t = Assertion /\ len bs < p5 + esz) \/
      (t = Terminate /\ p5 + esz <= len bs /\ nth_error (m_types m) (Z.to_nat ti) = None))).
Proof.
  induction n as [|n IH]; intros i bs p t Hi Hb Hp.
  - split; [discriminate|]. rewrite skipn_all2 by lia.
    intros (tis & ti & tis' & H). destruct H as (? & ? & ? & ? & ? & ? & E & _).
    destruct tis; discriminate.
  - destruct (skipn i (m_func_types m)) as [|ti tis] eqn:Es.
    { apply (f_equal (@length Z)) in Es. rewrite skipn_length in Es. cbn in Es. lia. }
    destruct (skipn_cons _ _ _ _ Es) as [En Es'].
    cbn [decode_codes]. unfold dbind. split.
    + intros E. destruct (read_varu32 bs p) as [[sz p1]| | | |] eqn:E1; cbn [bind] in E; try discriminate.
      2: { exfalso. eapply reader_no_trap_u32; eauto. }
      destruct (rd_ok _ _ _ reader_u32 _ _ _ _ Hb Hp E1) as [U1 B1].
      unfold position in E. cbn [bind] in E. assert (Hp1 : 0 <= p1 <= len bs) by lia.
      destruct (read_varu32 bs p1) as [[nr p2]| | | |] eqn:E2; cbn [bind] in E; try discriminate.
      2: { exfalso. exact (reader_no_trap_u32 _ _ _ Hb Hp1 E2). }
      destruct (rd_ok _ _ _ reader_u32 _ _ _ _ Hb Hp1 E2) as [U2 B2].
      assert (0 <= sz) by (destruct U1 as (g & _ & _ & _ & ->); apply Z.mod_pos_bound; lia).
      unfold reposition in E. fold (len bs) in E.
      destruct ((0 <=? p1 + sz) && (p1 + sz <=? len bs)) eqn:Eb; cbn [bind] in E.
      2: { injection E as <-. exists [], ti, tis, [], p, sz, p1, nr, p2. split; [reflexivity|].
           split; [constructor|]. split; [auto|]. split; [auto|]. left. split; [auto|lia]. }
      unfold type_for in E. rewrite En in E.
      destruct (nth_error (m_types m) (Z.to_nat ti)) as [ft|] eqn:Et; cbn [bind] in E.
      2: { injection E as <-. exists [], ti, tis, [], p, sz, p1, nr, p2. split; [reflexivity|].
           split; [constructor|]. split; [auto|]. split; [auto|]. right. split; [auto|]. split; [lia|auto]. }
      assert (Hp2 : 0 <= p1 + sz <= len bs) by lia.
      destruct (decode_codes m (S i) n bs (p1 + sz)) as [[? ?]| | | |] eqn:E3; cbn [bind] in E; try discriminate.
      injection E as ->. apply IH in E3; [|lia|auto|auto].
      destruct E3 as (ts1 & t1 & ts2 & fs & p4 & esz & p5 & nr' & p6 & Hs & Hc & H1 & H2 & H3).
      rewrite Es' in Hs.
      exists (ti :: ts1), t1, ts2.
      exists (mk_func (Z.of_nat (length (m_types m))) (ti, ft) p2 nr :: fs), p4, esz, p5, nr', p6.
      split; [cbn; now rewrite Hs|]. split; [|auto]. econstructor; [|exact Hc].
      exists sz, p1, ft. cbn. unfold arg_nregs, ret_nregs. rewrite !sum_nregs_slots.
      fold (len bs). repeat split; auto; lia.
    + intros (ts1 & t1 & ts2 & fs & p4 & esz & p5 & nr & p6 & Hs & Hc & H1 & H2 & H3).
      assert (Hsz : 0 <= esz) by (destruct H1 as (g & _ & _ & _ & ->); apply Z.mod_pos_bound; lia).
      destruct ts1 as [|t0 ts1]; cbn in Hs; injection Hs as <- Hs.
      * inversion Hc; subst.
        rewrite (rd_complete _ _ _ reader_u32 _ _ _ _ Hb Hp H1). cbn [bind]. unfold position. cbn [bind].
        pose proof (mono_u32 _ _ _ _ H1). assert (Hp1 : 0 <= p5 <= len bs) by lia.
        rewrite (rd_complete _ _ _ reader_u32 _ _ _ _ Hb Hp1 H2). cbn [bind].
        unfold reposition. fold (len bs).
        destruct H3 as [(-> & L)|(-> & L & N)].
        -- replace ((0 <=? p5 + esz) && (p5 + esz <=? len bs)) with false by lia. reflexivity.
        -- replace ((0 <=? p5 + esz) && (p5 + esz <=? len bs)) with true by lia. cbn [bind].
           unfold type_for. rewrite En, N. reflexivity.
      * inversion Hc as [|? ? f q ? fs2 ? C Cs]; subst.
        destruct C as (sz & p1 & ft & U1 & U2 & -> & Hq & Ht & _).
        rewrite (rd_complete _ _ _ reader_u32 _ _ _ _ Hb Hp U1). cbn [bind]. unfold position. cbn [bind].
        pose proof (mono_u32 _ _ _ _ U1). assert (Hp1 : 0 <= p1 <= len bs) by lia.
        rewrite (rd_complete _ _ _ reader_u32 _ _ _ _ Hb Hp1 U2). cbn [bind].
        assert (0 <= sz) by (destruct U1 as (g & _ & _ & _ & ->); apply Z.mod_pos_bound; lia).
        unfold reposition. replace ((0 <=? p1 + sz) && (p1 + sz <=? Z.of_nat (length bs))) with true by lia.
        cbn [bind]. unfold type_for. rewrite En, Ht. cbn [bind].
        assert (Hp2 : 0 <= p1 + sz <= len bs) by (unfold len; lia).
        replace (decode_codes m (S i) n bs (p1 + sz)) with (@Trap (list func * Z) t); [reflexivity|].
        symmetry. apply IH; auto; [lia|].
        exists ts1, t1, ts2, fs2, p4, esz, p5, nr, p6. auto.
Qed.

Lemma fatal_code m bs p t : is_bytes bs -> 0 <= p <= len bs ->
  (one_section m bs p = Trap t <-> fatal bs p m t).
Proof.
  intros Hb Hp. unfold one_section, dbind, read_section_code, dbind.
  assert (NT : forall sz, trapless (decode_type_section m sz)).
  { intros sz. apply (trapless_sized read_type type_at sz
      (fun ts => mkModule (m_types m ++ ts) (m_func_types m) (m_funcs m)) reader_type mono_type trapless_type). }
  assert (NF : forall sz, trapless (decode_func_section m sz)).
  { intros sz. apply (trapless_sized read_varu32 u32_at sz
      (fun is => mkModule (m_types m) (m_func_types m ++ is) (m_funcs m))
      (reader_weaken 1 0 _ _ ltac:(lia) reader_u32) mono_u32 reader_no_trap_u32). }
  split.
  - intros E. destruct (read_byte bs p) as [[c p1]| | | |] eqn:E1; cbn [bind] in E; try discriminate.
    2: { exfalso. eapply reader_no_trap_byte; eauto. }
    destruct (rd_ok _ _ _ reader_byte _ _ _ _ Hb Hp E1) as [B1 L1]. unfold S_LAST in E.
    destruct (Z.ltb_spec 11 c) as [|Lc]; [discriminate|]. unfold dret in E. cbn [bind] in E.
    assert (Hp1 : 0 <= p1 <= len bs) by lia.
    destruct (read_varu32 bs p1) as [[sz p2]| | | |] eqn:E2; cbn [bind] in E; try discriminate.
    2: { exfalso. exact (reader_no_trap_u32 _ _ _ Hb Hp1 E2). }
    destruct (rd_ok _ _ _ reader_u32 _ _ _ _ Hb Hp1 E2) as [U2 L2].
    assert (Hp2 : 0 <= p2 <= len bs) by lia.
    unfold S_TYPE, S_FUNC, S_CODE in E.
    destruct (Z.eqb_spec c 1) as [->|N1]; [exfalso; exact (NT sz _ _ _ Hb Hp2 E)|].
    destruct (Z.eqb_spec c 3) as [->|N3]; [exfalso; exact (NF sz _ _ _ Hb Hp2 E)|].
    destruct (Z.eqb_spec c 10) as [->|N10].
    + unfold decode_code_section, dbind in E.
      destruct (read_varu32 bs p2) as [[n p3]| | | |] eqn:E3; cbn [bind] in E; try discriminate.
      2: { exfalso. exact (reader_no_trap_u32 _ _ _ Hb Hp2 E3). }
      destruct (rd_ok _ _ _ reader_u32 _ _ _ _ Hb Hp2 E3) as [U3 L3].
      destruct (Z.eqb_spec n (Z.of_nat (length (m_func_types m)))) as [->|]; cbn [negb] in E; [|discriminate].
      rewrite Nat2Z.id in E. assert (Hp3 : 0 <= p3 <= len bs) by lia.
      destruct (decode_codes m 0 (length (m_func_types m)) bs p3) as [[? ?]| | | |] eqn:E4;
        cbn [bind] in E; try discriminate.
      injection E as ->. apply codes_trap in E4; auto. cbn [skipn] in E4.
      destruct E4 as (ts1 & t1 & ts2 & fs & p4 & esz & p5 & nr & p6 & Hs & Hc & H1 & H2 & [(-> & H3)|(-> & H3 & H4)]).
      * econstructor 2; eauto.
      * econstructor 3; eauto.
    + injection E as <-. econstructor 1; eauto. cbn. intuition.
  - assert (RD : forall c p1 sz p2, byte_at bs p c p1 -> u32_at bs p1 sz p2 ->
      read_byte bs p = Ok (c, p1) /\ read_varu32 bs p1 = Ok (sz, p2) /\ 0 <= p2 <= len bs).
    { intros c p1 sz p2 B U. pose proof (mono_byte _ _ _ _ B). pose proof (mono_u32 _ _ _ _ U).
      assert (Hp1 : 0 <= p1 <= len bs) by lia.
      split; [exact (rd_complete _ _ _ reader_byte _ _ _ _ Hb Hp B)|].
      split; [exact (rd_complete _ _ _ reader_u32 _ _ _ _ Hb Hp1 U)|lia]. }
    assert (CC : forall p1 sz p2 p3 t tis ti tis' fs p4 esz p5 nr p6,
      byte_at bs p 10 p1 -> u32_at bs p1 sz p2 ->
      u32_at bs p2 (Z.of_nat (length (m_func_types m))) p3 ->
      m_func_types m = tis ++ ti :: tis' -> codes_at bs (m_types m) p3 tis fs p4 ->
      u32_at bs p4 esz p5 -> u32_at bs p5 nr p6 ->
      ((t = Assertion /\ len bs < p5 + esz) \/
      (t = Terminate /\ p5 + esz <= len bs /\ nth_error (m_types m) (Z.to_nat ti) = None)) ->
      (do (a, p'0) <- (do (a, p'0) <- read_byte bs p;
       (if S_LAST <? a then dthrow DecodeError else dret a) bs p'0);
       do (a0, p'1) <- read_varu32 bs p'0;
       (if a =? S_TYPE then decode_type_section m a0
        else if a =? S_FUNC then decode_func_section m a0
        else if a =? S_CODE then decode_code_section m a0 else dtrap Assertion) bs p'1) = Trap t).
    { intros p1 sz p2 p3 t' tis ti tis' fs p4 esz p5 nr p6 B U U3 E C U4 U5 D.
      destruct (RD _ _ _ _ B U) as (-> & R2 & Hp2). cbn [bind]. change (S_LAST <? 10) with false.
      unfold dret at 1. cbn [bind]. rewrite R2. cbn [bind].
      change (10 =? S_TYPE) with false. change (10 =? S_FUNC) with false. change (10 =? S_CODE) with true.
      unfold decode_code_section, dbind.
      rewrite (rd_complete _ _ _ reader_u32 _ _ _ _ Hb Hp2 U3). cbn [bind].
      rewrite Z.eqb_refl, Nat2Z.id. cbn [negb].
      pose proof (mono_u32 _ _ _ _ U3). assert (Hp3 : 0 <= p3 <= len bs) by lia.
      replace (decode_codes m 0 (length (m_func_types m)) bs p3) with (@Trap (list func * Z) t'); [reflexivity|].
      symmetry. apply codes_trap; auto. cbn [skipn]. rewrite E.
      exists tis, ti, tis', fs, p4, esz, p5, nr, p6. auto 10. }
    intros F. destruct F.
    + destruct (RD _ _ _ _ H H2) as (-> & R2 & _). cbn [bind]. unfold S_LAST.
      replace (11 <? c) with false by lia. unfold dret at 1. cbn [bind]. rewrite R2. cbn [bind].
      unfold S_TYPE, S_FUNC, S_CODE. cbn in H1.
      replace (c =? 1) with false by lia. replace (c =? 3) with false by lia.
      replace (c =? 10) with false by lia. reflexivity.
    + eapply CC; eauto.
    + eapply CC; eauto 6.
Qed.

Lemma sections_trap fuel : forall m bs p t, is_bytes bs -> 0 <= p <= len bs -> len bs - p < Z.of_nat fuel ->
  (sections fuel m bs p = Trap t <->
   exists cs p' m', layout bs p m cs p' m' /\ p' < len bs /\ fatal bs p' m' t).
Proof.
  assert (FB : forall bs p m t, fatal bs p m t -> p < len bs).
  { intros bs p m t F. destruct F.
    - apply bytes_at_bound in H. unfold len in H at 1. cbn in H. lia.
    - apply bytes_at_bound in H. unfold len in H at 1. cbn in H. lia.
    - apply bytes_at_bound in H. unfold len in H at 1. cbn in H. lia. }
  assert (LB : forall bs p m cs p' m', layout bs p m cs p' m' -> 0 <= p <= len bs -> p <= p' <= len bs).
  { intros bs p m cs p' m' L. induction L as [|p m c p0 p1 m1 cs p2 m2 _ S L IH]; [lia|].
    apply section_mono in S. intros. specialize (IH ltac:(lia)). lia. }
  induction fuel as [|fuel IH]; intros m bs p t Hb Hp Hf; [lia|].
  rewrite sections_unfold. destruct (Z.eqb_spec p (len bs)) as [->|N].
  - split; [discriminate|]. intros (cs & p' & m' & L & Hl & F).
    apply LB in L; [lia|lia].
  - unfold dbind. split.
    + intros E. destruct (one_section m bs p) as [[m1 p1]| | | |] eqn:E1; cbn [bind] in E; try discriminate.
      * destruct (rd_ok _ _ _ (reader_section m) _ _ _ _ Hb Hp E1) as [S B].
        apply IH in E; auto; try lia. destruct E as (cs & p' & m' & L & Hl & F).
        pose proof S as S0. apply section_at_body in S0 as (c & q & Bc & _).
        exists (c :: cs), p', m'. split; [econstructor; eauto|auto].
      * injection E as ->. apply fatal_code in E1; auto. exists [], p, m.
        split; [constructor|]. split; [lia|auto].
    + intros (cs & p' & m' & L & Hl & F). destruct L as [p m|p m c p0 p1 m1 cs p2 m2 Bc S L].
      * apply fatal_code in F; auto. rewrite F. reflexivity.
      * rewrite (rd_complete _ _ _ (reader_section m) _ _ _ _ Hb Hp S). cbn [bind].
        apply section_mono in S. apply IH; auto; try lia. eauto 6.
Qed.

Lemma compile_trap bs t : is_bytes bs ->
  (compile bs = Trap t <-> bytes_at bs 0 header_bytes 8 /\
     exists cs p m, layout bs 8 (mkModule [] [] []) cs p m /\ p < len bs /\ fatal bs p m t).
Proof.
  intros Hb. assert (Hp0 : 0 <= 0 <= len bs) by (unfold len; lia).
  change header_bytes with ([97; 98; 97; 98] ++ [1; 0; 0; 0]). rewrite bytes_at_split.
  assert (Hg1 : is_bytes [97; 98; 97; 98]) by (repeat constructor; unfold is_byte; lia).
  assert (Hg2 : is_bytes [1; 0; 0; 0]) by (repeat constructor; unfold is_byte; lia).
  unfold compile, dbind, read_u32. split.
  - intros E. destruct (read_raw 4 bs 0) as [[v p1]| | | |] eqn:E1; cbn [bind] in E; try discriminate.
    2: { destruct (read_raw_tame 4 bs 0 ltac:(lia)) as [(x & Ex & _)|Ex]; rewrite Ex in E1; discriminate. }
    destruct (Z.eqb_spec v MODULE_MAGIC) as [->|]; cbn [negb] in E; [|discriminate].
    change MODULE_MAGIC with (le_value [97; 98; 97; 98]) in E1.
    apply read_raw_at in E1; auto. pose proof (bytes_at_bound _ _ _ _ E1) as B1.
    unfold len in B1 at 1. cbn [length] in B1.
    assert (Hp1 : 0 <= p1 <= len bs) by lia.
    destruct (read_raw 4 bs p1) as [[w p2]| | | |] eqn:E2; cbn [bind] in E; try discriminate.
    2: { destruct (read_raw_tame 4 bs p1 ltac:(lia)) as [(x & Ex & _)|Ex]; rewrite Ex in E2; discriminate. }
    destruct (Z.eqb_spec w MODULE_VERSION) as [->|]; cbn [negb] in E; [|discriminate].
    change MODULE_VERSION with (le_value [1; 0; 0; 0]) in E2.
    apply read_raw_at in E2; auto. pose proof (bytes_at_bound _ _ _ _ E2) as B2.
    unfold len in B2 at 1. cbn [length] in B2. assert (p2 = 8) as -> by lia. split; [eauto|].
    destruct (sections (S (length bs)) _ bs 8) as [[? ?]| | | |] eqn:E3; cbn [bind] in E; try discriminate.
    injection E as ->. apply sections_trap in E3; auto; unfold len in *; lia.
  - intros ((p1 & B1 & B2) & S).
    pose proof (bytes_at_bound _ _ _ _ B1) as L1. pose proof (bytes_at_bound _ _ _ _ B2) as L2.
    unfold len in L1 at 1. cbn [length] in L1.
    apply read_raw_at with (n := 4%nat) in B1; auto.
    apply read_raw_at with (n := 4%nat) in B2; auto; [|lia].
    rewrite B1. cbn [bind]. change (le_value [97; 98; 97; 98] =? MODULE_MAGIC) with true. cbn [negb].
    rewrite B2. cbn [bind]. change (le_value [1; 0; 0; 0] =? MODULE_VERSION) with true. cbn [negb].
    unfold len in L2 at 1. cbn [length] in L2.
    apply (sections_trap (Datatypes.S (length bs))) in S; auto; [|lia|unfold len; lia].
    rewrite S. reflexivity.
Qed.

(** * Facts about accepted files *)

Lemma sections_layout bs p m m' : sections_at bs p m m' ->
  exists cs, layout bs p m cs (Z.of_nat (length bs)) m'.
Proof.
  induction 1 as [m|p m m1 p1 m2 S H (cs & IH)]; [exists []; constructor|].
  pose proof S as S0. apply section_at_body in S0 as (c & q & Bc & _).
  exists (c :: cs). econstructor; eauto.
Qed.

Definition func_ok (bs : bytes) (m : module) (f : func) : Prop :=
  0 <= f_type f < f_ntypes f /\ f_ntypes f <= Z.of_nat (length (m_types m)) /\
  8 < f_body f <= len bs /\
  exists t, nth_error (m_types m) (Z.to_nat (f_type f)) = Some t /\
    f_arg_nregs f = slots_of (ft_args t) /\ f_ret_nregs f = slots_of (ft_rets t) /\
    0 <= f_var_nregs f < 2 ^ 32 /\ f_nregs f = (f_var_nregs f + f_arg_nregs f) mod 2 ^ 32.

Lemma codes_funcs bs ts p tis fs p' : 8 <= p <= len bs -> Forall (fun i => 0 <= i) tis ->
  codes_at bs ts p tis fs p' ->
  Forall (fun f => In (f_type f) tis /\ f_ntypes f = Z.of_nat (length ts) /\
    func_ok bs (mkModule ts [] []) f) fs /\ length fs = length tis.
Proof.
  intros Hp Hn H. induction H as [|p ti f p1 tis fs p2 C Cs IH]; [split; [constructor|reflexivity]|].
  inversion Hn as [|? ? Ht Hn']; subst.
  destruct C as (sz & q & ft & U1 & U2 & -> & Hq & Ht2 & <- & E2 & E3 & E4 & E5).
  pose proof (mono_u32 _ _ _ _ U1). pose proof (mono_u32 _ _ _ _ U2).
  assert (0 <= sz) by (destruct U1 as (g & _ & _ & _ & ->); apply Z.mod_pos_bound; lia).
  unfold len in *. specialize (IH ltac:(lia) Hn') as [IH1 IH2]. split; [|cbn; lia].
  constructor.
  - split; [now left|]. split; [auto|]. cbn. unfold func_ok. cbn.
    assert (HL : (Z.to_nat (f_type f) < length ts)%nat) by (apply nth_error_Some; congruence).
    split; [lia|]. split; [lia|]. split; [|exists ft; repeat split; auto].
    + destruct U2 as (g & U2 & Hs & _). apply bytes_at_bound in U2. pose proof (leb_nonempty _ Hs).
      unfold len in U2. assert (1 <= Z.of_nat (length g)) by (destruct g; [congruence|cbn [length]; lia]). unfold len. lia.
    + destruct U2 as (g & _ & _ & _ & ->). apply Z.mod_pos_bound. lia.
    + destruct U2 as (g & _ & _ & _ & ->). apply Z.mod_pos_bound. lia.
  - eapply Forall_impl; [|exact IH1]. intros a (K1 & K2). split; [now right|auto].
Qed.

Lemma func_ok_grow bs m m' f ts : m_types m' = m_types m ++ ts -> func_ok bs m f -> func_ok bs m' f.
Proof.
  intros E (H1 & H2 & H3 & t & H4 & H5). unfold func_ok. rewrite E, app_length.
  split; [auto|]. split; [lia|]. split; [auto|]. exists t. split; [|auto].
  rewrite nth_error_app1; auto. apply nth_error_Some. congruence.
Qed.

Lemma seq_u32_nonneg bs p xs p' : seq_at (u32_at bs) p xs p' -> Forall (fun i => 0 <= i) xs.
Proof.
  induction 1 as [|p x p1 xs p2 E S IH]; constructor; auto.
  destruct E as (g & _ & _ & _ & ->). apply Z.mod_pos_bound. lia.
Qed.

Lemma layout_ok bs p m cs p' m' : layout bs p m cs p' m' -> 8 <= p <= len bs ->
  Forall (fun i => 0 <= i) (m_func_types m) ->
  Forall (func_ok bs m) (m_funcs m) ->
  Forall (fun i => 0 <= i) (m_func_types m') /\ Forall (func_ok bs m') (m_funcs m').
Proof.
  induction 1 as [p m|p m c p0 p1 m1 cs p2 m2 _ S L IH]; intros Hp H1 H2; [auto|].
  pose proof (section_mono _ _ _ _ _ S).
  destruct S as [q1 q2 q3 sz ts _ _ V E|q1 q2 q3 sz is _ _ V E|q1 q2 q3 q4 sz fs B1 U1 U2 C].
  - apply IH; cbn [m_types m_func_types m_funcs]; auto; [lia|].
    eapply Forall_impl; [|exact H2]. intros f. apply (func_ok_grow _ _ _ _ ts). reflexivity.
  - apply IH; cbn [m_types m_func_types m_funcs]; auto; [lia|].
    destruct V as (q & _ & V). apply seq_u32_nonneg in V. apply Forall_app. auto.
  - apply IH; cbn [m_types m_func_types m_funcs]; auto; [lia|].
    apply Forall_app. split.
    + eapply Forall_impl; [|exact H2]. intros f. apply (func_ok_grow _ _ _ _ []).
      cbn. now rewrite app_nil_r.
    + pose proof (mono_byte _ _ _ _ B1). pose proof (mono_u32 _ _ _ _ U1). pose proof (mono_u32 _ _ _ _ U2).
      apply codes_funcs in C; [|lia|auto]. destruct C as (C & _).
      eapply Forall_impl; [|exact C]. intros f (_ & _ & F).
      eapply (func_ok_grow _ _ _ _ []); [|exact F]. cbn. now rewrite app_nil_r.
Qed.

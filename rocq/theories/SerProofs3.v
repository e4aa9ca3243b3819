From Verif Require Import SerModel SerSpec SerProofs SerProofs2.
Local Open Scope N_scope.

(** * Return values on truncated input *)
Lemma reports_false :
  (forall t, readable t = true -> reports t = true -> forall v o s p q ok w s',
     fits t v = true -> p ++ q = enc t v -> q <> [] -> len (enc t v) < max_buffer ->
     unread s p -> de t o s = (ok, w, s') -> ok = false) /\
  (forall l, readables l = true -> reports_all l = true ->
     (forall t, l = TCons t TNil -> forall v o s p q ok w s',
        fits_all l v = true -> p ++ q = encs l v -> q <> [] -> len (encs l v) < max_buffer ->
        unread s p -> de_tup l false o s = (ok, w, s') -> ok = false) /\
     (forall v i s p q B (inj : sumt l -> B) old, fits_alt l v = true ->
        0 < i -> i + count_tys l <= two32 -> len (enc_alt l i v) < max_buffer ->
        p ++ q = enc_alt l i v -> q <> [] -> unread s p ->
        (exists n s', de_size s = (false, n, s')) \/
        (exists idx s1, de_size s = (true, idx, s1) /\ i <= idx /\
           forall ok w s', de_alt l (idx - i) B inj old s1 = (ok, w, s') -> ok = false))).
Proof.
  apply ty_tys_ind.
  - intros w sg Hr _ v o s p q ok w' s' Hf E Hq Hm Hu D.
    pose proof (proj1 starves_all (TNum w sg) Hr v o s p q ok w' s' Hf E Hq Hm Hu D) as [_ Df].
    cbn [de] in D. unfold de_num in D. destruct (read s (N.of_nat w)) as [s1 r]. inversion D; subst.
    rewrite Df. reflexivity.
  - intros w Hr _ v o s p q ok w' s' Hf E Hq Hm Hu D.
    pose proof (proj1 starves_all (TStr w) Hr v o s p q ok w' s' Hf E Hq Hm Hu D) as [_ Df].
    cbn [de] in D. unfold de_str in D. destruct (de_size s) as [[o1 n] s1].
    destruct o1; [destruct (0 <? n); [destruct (read s1 _) as [s2 r]|]|];
      inversion D; subst; rewrite Df; reflexivity.
  - discriminate.
  - discriminate.
  - discriminate.
  - discriminate.
  - intros l IH Hr Hp v o s p q ok w' s' Hf E Hq Hm Hu D. cbn [reports readable] in *.
    destruct l as [|t [|]]; try discriminate.
    assert (Hra : reports_all (TCons t TNil) = true) by (cbn [reports_all]; rewrite Hp; reflexivity).
    destruct (IH Hr Hra) as [H _]. exact (H t eq_refl v o s p q ok w' s' Hf E Hq Hm Hu D).
  - intros l IH Hr Hp v o s p q ok w' s' Hf E Hq Hm Hu D. cbn [reports readable] in *.
    destruct l as [|t [|]]; try discriminate.
    assert (Hra : reports_all (TCons t TNil) = true) by (cbn [reports_all]; rewrite Hp; reflexivity).
    destruct (IH Hr Hra) as [H _]. exact (H t eq_refl v o s p q ok w' s' Hf E Hq Hm Hu D).
  - discriminate.
  - intros t IH l IHl Hr Hp v o s p q ok w' s' Hf E Hq Hm Hu D. cbn [readable reports fits enc de] in *.
    apply andb_true_iff in Hr as [Hr Hcount]. apply andb_true_iff in Hr as [Hrt Hrl].
    apply andb_true_iff in Hp as [Hpt Hpl].
    apply N.ltb_lt in Hcount. fold two32 in Hcount. destruct (IHl Hrl Hpl) as [_ IHa].
    destruct v as [v|v].
    + unfold count4 in *. rewrite len_app in Hm.
      apply prefix_split in E as [(q' & Hq' & E1 & _)|(p' & -> & E2)].
      * destruct (de_size_short s p Hu) as (s1 & E3 & D1).
        { pose proof (len_lt_of_split p q' Hq'). rewrite E1, len_le in H. exact H. }
        rewrite E3 in D. inversion D; reflexivity.
      * destruct (de_size_ok _ 0 _ ltac:(reflexivity) Hu) as (s1 & E3 & Hu1 & _). rewrite E3 in D.
        cbn [N.eqb] in D. unfold de_altval in D.
        destruct (de t (dinit t) s1) as [[ok2 x2] s2] eqn:D2.
        assert (ok2 = false) by (eapply (IH Hrt Hpt); eauto; lia). subst. inversion D; reflexivity.
    + destruct (IHa v 1 s p q _ inr o Hf) as [(n & s1 & E3)|(idx & s1 & E3 & Hi & Hd)]; auto; try lia.
      * rewrite E3 in D. inversion D; reflexivity.
      * rewrite E3 in D. replace (idx =? 0) with false in D by (symmetry; apply N.eqb_neq; lia).
        eapply Hd; eauto.
  - intros _ _. split; [discriminate|]. intros [].
  - intros t IH l IHl Hr Hp. cbn [readables reports_all] in *.
    apply andb_true_iff in Hr as [Hrt Hrl]. apply andb_true_iff in Hp as [Hpt Hpl].
    destruct (IHl Hrl Hpl) as [_ IHa]. split.
    + intros t' El v o s p q ok w s' Hf E Hq Hm Hu D. inversion El; subst t' l.
      cbn [fits_all encs de_tup] in *. rewrite app_nil_r in *. rewrite andb_true_r in Hf.
      destruct (de t (fst o) s) as [[ok1 x] s1] eqn:D1. inversion D; subst.
      eapply (IH Hrt Hpt) in D1; eauto.
    + intros v i s p q B inj old Hf Hi0 Hi Hm E Hq Hu. cbn [fits_alt enc_alt de_alt count_tys] in *.
      destruct v as [v|v].
      * unfold count4 in *. rewrite len_app in Hm.
        apply prefix_split in E as [(q' & Hq' & E1 & _)|(p' & -> & E2)].
        -- left. destruct (de_size_short s p Hu) as (s1 & E3 & D1).
           { pose proof (len_lt_of_split p q' Hq'). rewrite E1, len_le in H. exact H. }
           eauto.
        -- right. assert (Hlt : i < two32) by lia.
           destruct (de_size_ok _ _ _ Hlt Hu) as (s1 & E3 & Hu1 & _).
           exists i, s1. split; [exact E3|]. split; [lia|]. intros ok w s' D.
           rewrite N.sub_diag in D. cbn [N.eqb] in D. unfold de_altval in D.
           destruct (de t (dinit t) s1) as [[ok2 x2] s2] eqn:D2.
           assert (ok2 = false) by (eapply (IH Hrt Hpt); eauto; lia). subst. inversion D; reflexivity.
      * destruct (IHa v (i + 1) s p q B (fun b => inj (inr b)) old Hf)
          as [?|(idx & s1 & E3 & Hidx & Hd)]; auto; try lia.
        right. exists idx, s1. split; [exact E3|]. split; [lia|]. intros ok w s' D.
        replace (idx - i =? 0) with false in D by (symmetry; apply N.eqb_neq; lia).
        replace (idx - i - 1) with (idx - (i + 1)) in D by lia. eapply Hd; eauto.
Qed.

(** * Arbitrary input: a read that did not fail consumed exactly an encoding *)
Lemma read_cases s bs n : unread s bs -> n < max_buffer ->
  (exists p rest s', bs = p ++ rest /\ len p = n /\ read s n = (s', Some p) /\ unread s' rest /\ ibuf s' = ibuf s) \/
  (exists s', read s n = (s', None) /\ dead s' /\ len bs < n /\ oob s' = false /\ ibuf s' = ibuf s).
Proof.
  intros Hu Hn. destruct (N.le_gt_cases n (len bs)) as [H|H].
  - left. exists (firstn (N.to_nat n) bs), (skipn (N.to_nat n) bs).
    assert (L : len (firstn (N.to_nat n) bs) = n).
    { unfold len in *. rewrite firstn_length. lia. }
    pose proof Hu as Hu'. rewrite <- (firstn_skipn (N.to_nat n) bs) in Hu'.
    destruct (read_ok _ _ _ Hu') as (s' & E & Hu1 & Hb & _). rewrite L in E. exists s'.
    rewrite firstn_skipn. auto.
  - right. destruct (read_short _ _ _ Hu H Hn) as (s' & E & D). exists s'. repeat split; auto; try apply D.
    + unfold read in E. destruct Hu as (Hg & Hf & Ho & Hp & Hs & Hm). rewrite Hg in E.
      destruct (_ <? _) eqn:Q1; [inversion E; subst; exact Ho|].
      destruct (_ <=? _) eqn:Q2; [inversion E|].
      exfalso. cbv zeta in *. apply N.ltb_ge in Q1. apply N.leb_gt in Q2.
      assert (W : (ipos s + n) mod two64 = ipos s + n).
      { apply N.mod_small. unfold two64, max_buffer in *. change (2 ^ 64) with (2 * 2 ^ 63). lia. }
      rewrite W in Q1. lia.
    + unfold read in E. destruct (igood s); [|inversion E; reflexivity].
      destruct (_ <? _); [inversion E; reflexivity|]. destruct (_ <=? _); inversion E; reflexivity.
Qed.

Lemma de_size_cases s bs : unread s bs ->
  (exists n rest s', n < two32 /\ bs = le 4 n ++ rest /\ de_size s = (true, n, s') /\ unread s' rest /\ ibuf s' = ibuf s) \/
  (exists s', de_size s = (false, 0, s') /\ dead s' /\ oob s' = false /\ ibuf s' = ibuf s).
Proof.
  intros Hu. destruct (read_cases s bs 4 Hu) as [(p & rest & s' & E & L & R & Hu' & Hb)|(s' & R & D & L & O & Hb)];
    [reflexivity| |].
  - left. assert (Lp : length p = 4%nat) by (unfold len in L; lia).
    exists (un_le p), rest, s'. unfold de_size. rewrite R, (unread_fail _ _ Hu').
    repeat split; auto; try apply Hu'.
    + pose proof (un_le_bound p) as B. rewrite Lp in B. exact B.
    + rewrite <- Lp at 1. rewrite le_un_le. exact E.
  - right. exists s'. unfold de_size. rewrite R. destruct D as [Dg Df]. rewrite Df. repeat split; auto.
Qed.

(** Outcome of a read on arbitrary bytes: either the stream is dead, or exactly an encoding was consumed. *)
Definition sound_at {A} (encode : A -> list byte) (ok_v : A -> Prop) (combine : A -> A)
           (bs : list byte) (r : dres A) : Prop :=
  let '(ok, v, s') := r in
  (dead s') \/
  (ok = true /\ exists v0 rest, ok_v v0 /\ bs = encode v0 ++ rest /\ v = combine v0 /\ unread s' rest).

Definition sound t := forall old s bs, unread s bs ->
  sound_at (enc t) (fun v => fits t v = true) (merged t old) bs (de t old s).

Lemma unchars_spec w n : forall bs, len bs = n * N.of_nat w ->
  exists s, length s = N.to_nat n /\ unchars w (N.to_nat n) bs = s /\ flat_map (le w) s = bs /\
            forallb (fun c => c <? 256 ^ N.of_nat w) s = true.
Proof.
  intros bs. rewrite <- (N2Nat.id n) at 1. generalize (N.to_nat n) as k. clear n. intros k. revert bs.
  induction k as [|k IH]; intros bs H; cbn [unchars].
  - exists []. assert (bs = []) by (destruct bs; [reflexivity|unfold len in H; simpl in H; lia]).
    subst. auto.
  - assert (L : (w <= length bs)%nat) by (unfold len in H; nia).
    destruct (IH (skipn w bs)) as (s & Hs & E & F & Hb).
    { unfold len in *. rewrite skipn_length. nia. }
    assert (Lw : length (firstn w bs) = w) by (rewrite firstn_length; lia).
    exists (un_le (firstn w bs) :: s). cbn [length flat_map forallb]. rewrite Hs, E, F, Hb.
    repeat split; auto.
    + rewrite <- Lw at 1. rewrite le_un_le, firstn_skipn. reflexivity.
    + pose proof (un_le_bound (firstn w bs)) as B. rewrite Lw in B.
      replace (_ <? _) with true by (symmetry; apply N.ltb_lt; exact B). reflexivity.
Qed.

Lemma de_loop_sound {A} (d : istream -> dres A) add (g : A -> list byte) (okv : A -> Prop) :
  (forall s ok v s', dead s -> d s = (ok, v, s') -> dead s') ->
  (forall s bs, unread s bs -> sound_at g okv (fun v => v) bs (d s)) ->
  forall n old s bs, unread s bs ->
  let '(ok, v, s') := de_loop d add n true old s in
  dead s' \/ (ok = true /\ exists c rest, length c = n /\ Forall okv c /\ bs = flat_map g c ++ rest /\
              v = fold_left add c old /\ unread s' rest).
Proof.
  intros Hdead Hs n. induction n as [|n IH]; intros old s bs Hu; cbn [de_loop].
  - right. split; [reflexivity|]. exists [], bs. auto.
  - specialize (Hs s bs Hu) as H1. destruct (d s) as [[ok1 e] s1]. cbn [orb].
    unfold sound_at in H1. destruct H1 as [D1|(-> & v0 & rest & Hv & -> & -> & Hu1)].
    + destruct (de_loop d add n true (add old e) s1) as [[ok v] s'] eqn:E.
      left. eapply de_loop_dead; eauto.
    + specialize (IH (add old v0) s1 rest Hu1).
      destruct (de_loop d add n true (add old v0) s1) as [[ok v] s'].
      destruct IH as [D|(-> & c & rest' & Hl & Hc & -> & -> & Hu')]; [left; exact D|].
      right. split; [reflexivity|]. exists (v0 :: c), rest'. cbn [length flat_map fold_left].
      rewrite Hl, app_assoc. auto.
Qed.

Lemma Forall_forallb {A} (f : A -> bool) l : Forall (fun x => f x = true) l -> forallb f l = true.
Proof. intros H. apply forallb_forall. apply Forall_forall. exact H. Qed.

Lemma sound_all :
  (forall t, canonical t = true -> cpp_widths t = true -> sound t) /\
  (forall l, canonicals l = true -> cpp_widths_all l = true -> forall old s bs b, unread s bs ->
     let '(ok, v, s') := de_tup l b old s in
     dead s' \/
     (ok = (b || nonempty_tys l)%bool /\ exists v0 rest, fits_all l v0 = true /\ bs = encs l v0 ++ rest /\
        v = merged_all l old v0 /\ unread s' rest)).
Proof.
  apply ty_tys_ind; try (intros; discriminate).
  - intros w sg _ Hw old s bs Hu. cbn [de enc fits merged cpp_widths] in *. apply Nat.leb_le in Hw.
    unfold sound_at, de_num.
    destruct (read_cases s bs (N.of_nat w) Hu) as [(p & rest & s' & E & L & R & Hu' & Hb)|(s' & R & D & L & _)].
    { unfold max_buffer. assert (16 < 2 ^ 63) by reflexivity. lia. }
    + rewrite R, (unread_fail _ _ Hu'). right. split; [reflexivity|].
      assert (Lp : length p = w) by (unfold len in L; lia).
      exists (Num (un_le p)), rest. repeat split; auto; try apply Hu'.
      * cbn [num_fits]. apply N.ltb_lt. rewrite <- Lp. apply un_le_bound.
      * rewrite <- Lp, le_un_le. exact E.
    + rewrite R. left. exact D.
  - intros w _ Hw old s bs Hu. cbn [de enc fits merged cpp_widths] in *. apply Nat.leb_le in Hw.
    unfold sound_at, de_str, count4.
    destruct (de_size_cases s bs Hu) as [(n & rest & s1 & Hn & E & R & Hu1 & _)|(s1 & R & D & _)].
    + rewrite R. destruct (0 <? n) eqn:Hn0.
      * destruct (read_cases s1 rest (n * N.of_nat w) Hu1)
          as [(p & rest2 & s2 & E2 & L2 & R2 & Hu2 & _)|(s2 & R2 & D2 & _)].
        { unfold max_buffer, two32 in *.
          assert (X : 2 ^ 32 * 16 < 2 ^ 63) by reflexivity. nia. }
        -- rewrite R2, (unread_fail _ _ Hu2). right. split; [reflexivity|].
           destruct (unchars_spec w n p L2) as (cs & Hlen & Hc & Hflat & Hb).
           assert (Hcs : len cs = n) by (unfold len; lia).
           exists cs, rest2. rewrite Hc. repeat split; auto; try apply Hu2.
           ++ rewrite Hcs, Hb, andb_true_r. apply N.ltb_lt. exact Hn.
           ++ rewrite Hcs, Hflat, <- app_assoc, <- E2. exact E.
           ++ destruct cs as [|c cs]; [|reflexivity]. apply N.ltb_lt in Hn0. rewrite <- Hcs in Hn0. cbn in Hn0. lia.
        -- rewrite R2. left. exact D2.
      * apply N.ltb_ge in Hn0. assert (n = 0) by lia. subst n.
        rewrite (unread_fail _ _ Hu1). right. split; [reflexivity|].
        exists [], rest. cbn [flat_map merged]. rewrite app_nil_r. repeat split; auto; apply Hu1.
    + rewrite R. left. exact D.
  - intros t IH Hc Hw old s bs Hu. cbn [de enc fits merged canonical cpp_widths] in *. specialize (IH Hc Hw).
    unfold sound_at, de_iter, count4.
    destruct (de_size_cases s bs Hu) as [(n & rest & s1 & Hn & E & R & Hu1 & _)|(s1 & R & D & _)].
    + rewrite R. destruct (0 <? n) eqn:Hn0; cbn [andb].
      * pose proof (de_loop_sound (fun s => de t (dinit t) s) push_back (enc t) (fun v => fits t v = true)
                     (fun s ok v s' Hd Hx => de_dead t _ s ok v s' Hd Hx)) as L.
        specialize (L ltac:(intros s0 bs0 Hu0; specialize (IH (dinit t) s0 bs0 Hu0); unfold sound_at in *;
                            destruct (de t (dinit t) s0) as [[ok0 v0] s0'];
                            destruct IH as [?|(? & v1 & r1 & F1 & ? & M1 & ?)]; [left; assumption|right];
                            split; [assumption|]; exists v1, r1; rewrite (merged_dinit _ _ F1) in M1; auto)
                       (N.to_nat n) old s1 rest Hu1).
        destruct (de_loop _ _ _ _ _ _) as [[ok v] s']. destruct L as [D|(-> & c & rest' & Hl & Hf & -> & -> & Hu')].
        -- left. exact D.
        -- right. split; [reflexivity|]. exists c, rest'. assert (Hcn : len c = n) by (unfold len; lia).
           rewrite fold_push. repeat split; auto; try apply Hu'.
           ++ apply andb_true_iff. split; [apply N.ltb_lt; clear - Hcn Hn; unfold two32 in Hn; rewrite <- Hcn in Hn; exact Hn | exact (Forall_forallb _ _ Hf)].
           ++ rewrite E, <- app_assoc. f_equal. f_equal. exact (eq_sym Hcn).
      * apply N.ltb_ge in Hn0. assert (n = 0) by lia. subst n. right. split; [reflexivity|].
        exists [], rest. cbn [flat_map]. rewrite !app_nil_r. repeat split; auto; apply Hu1.
    + rewrite R. left. exact D.
  - intros a IHa b IHb Hc Hw [oa ob] s bs Hu. cbn [de enc fits merged canonical cpp_widths] in *.
    apply andb_true_iff in Hc as [Hca Hcb]. apply andb_true_iff in Hw as [Hwa Hwb].
    specialize (IHa Hca Hwa oa s bs Hu). unfold sound_at in *. unfold de_pair. cbn [fst snd].
    destruct (de a oa s) as [[ok1 x] s1]. destruct IHa as [D|(-> & x0 & rest & Fx & -> & -> & Hu1)].
    + destruct ok1; [|left; exact D].
      destruct (de b ob s1) as [[ok2 y] s2] eqn:E2. left. eapply de_dead; eauto.
    + specialize (IHb Hcb Hwb ob s1 rest Hu1).
      destruct (de b ob s1) as [[ok2 y] s2].
      destruct IHb as [D|(-> & y0 & rest2 & Fy & -> & -> & Hu2)]; [left; exact D|].
      right. split; [reflexivity|]. exists (x0, y0), rest2. cbn [fst snd]. rewrite Fx, Fy, <- app_assoc.
      repeat split; auto; apply Hu2.
  - intros l IH Hc Hw old s bs Hu. cbn [canonical cpp_widths] in *. destruct l as [|t l]; [discriminate|].
    exact (IH Hc Hw old s bs false Hu).
  - intros l IH Hc Hw old s bs Hu. cbn [canonical cpp_widths] in *. destruct l as [|t l]; [discriminate|].
    exact (IH Hc Hw old s bs false Hu).
  - intros _ _ old s bs b Hu. cbn [de_tup]. right. rewrite orb_false_r. split; [reflexivity|].
    exists tt, bs. cbn. destruct old. auto.
  - intros t IH l IHl Hc Hw [ot ol] s bs b Hu. cbn [canonicals cpp_widths_all de_tup fst snd] in *.
    apply andb_true_iff in Hc as [Hct Hcl]. apply andb_true_iff in Hw as [Hwt Hwl].
    specialize (IH Hct Hwt ot s bs Hu). unfold sound_at in IH.
    destruct (de t ot s) as [[ok1 x] s1]. destruct IH as [D|(-> & x0 & rest & Fx & -> & -> & Hu1)].
    + destruct (de_tup l _ ol s1) as [[ok2 y] s2] eqn:E2. left.
      destruct de_dead_all as [_ A]. destruct (A l) as [A1 _]. eapply A1; eauto.
    + specialize (IHl Hcl Hwl ol s1 rest (b || true)%bool Hu1).
      destruct (de_tup l (b || true) ol s1) as [[ok2 y] s2].
      destruct IHl as [D|(-> & y0 & rest2 & Fy & -> & -> & Hu2)]; [left; exact D|].
      right. split; [cbn [nonempty_tys]; rewrite !orb_true_r; reflexivity|]. exists (x0, y0), rest2.
      cbn [fst snd fits_all encs merged_all]. rewrite Fx, Fy, <- app_assoc.
      repeat split; auto; apply Hu2.
Qed.

(** * Amplification: four count bytes and nothing else *)
Lemma de_loop_length {A} (d : istream -> dres A) n : forall old s,
  let '(ok, v, _) := de_loop d push_back n true old s in ok = true /\ length v = (length old + n)%nat.
Proof.
  induction n as [|n IH]; intros old s; cbn [de_loop].
  - split; [reflexivity|lia].
  - destruct (d s) as [[ok1 e] s1]. cbn [orb]. specialize (IH (push_back old e) s1).
    destruct (de_loop d push_back n true (push_back old e) s1) as [[ok v] s']. destruct IH as [-> L].
    split; [reflexivity|]. rewrite L. unfold push_back. rewrite app_length. simpl. lia.
Qed.

Lemma unread_istream_of b : len b < max_buffer -> unread (istream_of b) b.
Proof. intros H. unfold unread, istream_of; cbn [igood ifail oob ipos ibuf]. repeat split; auto. Qed.

Lemma amplification t n : n < two32 ->
  let '(ok, v, _) := de (TSeq t) [] (istream_of (le 4 n)) in ok = true /\ len v = n.
Proof.
  intros Hn. cbn [de]. unfold de_iter.
  assert (Hu : unread (istream_of (le 4 n)) (le 4 n ++ [])).
  { rewrite app_nil_r. apply unread_istream_of. rewrite len_le. reflexivity. }
  destruct (de_size_ok _ _ _ Hn Hu) as (s1 & E & _). rewrite E. cbn [andb].
  destruct (0 <? n) eqn:H0.
  - pose proof (de_loop_length (fun s => de t (dinit t) s) (N.to_nat n) [] s1) as L.
    destruct (de_loop _ _ _ _ _ _) as [[ok v] s']. destruct L as [-> L]. split; [reflexivity|].
    transitivity (N.of_nat (N.to_nat n)); [unfold len; f_equal; exact L | apply N2Nat.id].
  - apply N.ltb_ge in H0. split; [reflexivity|]. cbn. lia.
Qed.

Lemma de_loop_num_dead w n : forall old s, dead s ->
  let '(ok, v, _) := de_loop (fun s => de_num w Indet s) push_back n true old s in
  v = old ++ repeat Indet n.
Proof.
  induction n as [|n IH]; intros old s D; cbn [de_loop repeat].
  - rewrite app_nil_r. reflexivity.
  - unfold de_num at 1. destruct (read s (N.of_nat w)) as [s1 r] eqn:R.
    destruct (read_dead _ _ _ _ D R) as [D1 ->]. cbn [orb]. specialize (IH (push_back old Indet) s1 D1).
    destruct (de_loop _ _ _ _ _ _) as [[ok v] s']. rewrite IH. unfold push_back. rewrite <- app_assoc. reflexivity.
Qed.

(** * Raw reads *)
Lemma spec_reads_dead rest sizes : spec_reads rest false sizes = repeat None (length sizes).
Proof. induction sizes as [|n r IH]; cbn; [reflexivity|]. rewrite IH. reflexivity. Qed.

Lemma run_reads_dead sizes : forall s, dead s ->
  let '(os, s') := run_reads s sizes in os = repeat None (length sizes) /\ dead s' /\ oob s' = oob s /\ ipos s' = ipos s /\ ibuf s' = ibuf s.
Proof.
  induction sizes as [|n r IH]; intros s D; cbn [run_reads repeat length]; [repeat split; auto; apply D|].
  destruct (read s n) as [s1 o] eqn:R. destruct (read_dead _ _ _ _ D R) as [D1 ->].
  assert (O : oob s1 = oob s /\ ipos s1 = ipos s /\ ibuf s1 = ibuf s)
    by (unfold read in R; destruct D as [Dg _]; rewrite Dg in R; inversion R; auto).
  specialize (IH s1 D1). destruct (run_reads s1 r) as [os s2]. destruct IH as (-> & D2 & O2 & O3 & O4).
  repeat split; auto; try apply D2; intuition congruence.
Qed.

Lemma run_reads_ok sizes : Forall (fun n => n < max_buffer) sizes -> forall s rest, unread s rest ->
  let '(os, s') := run_reads s sizes in os = spec_reads rest true sizes /\ oob s' = false /\ ipos s' <= len (ibuf s').
Proof.
  induction 1 as [|n r Hn _ IH]; intros s rest Hu; cbn [run_reads spec_reads andb].
  - destruct Hu as (? & ? & ? & ? & ?). repeat split; auto. lia.
  - destruct (read_cases s rest n Hu Hn) as [(p & rest2 & s1 & -> & L & R & Hu1 & _)|(s1 & R & D & L & O & B)].
    + rewrite R. specialize (IH s1 rest2 Hu1). destruct (run_reads s1 r) as [os s2]. destruct IH as (-> & O & P).
      replace (n <=? len (p ++ rest2)) with true by (symmetry; apply N.leb_le; rewrite len_app; lia).
      rewrite <- L, to_nat_len, firstn_app, firstn_all, Nat.sub_diag, firstn_O, app_nil_r.
      rewrite skipn_app, skipn_all, Nat.sub_diag. auto.
    + rewrite R. replace (n <=? len rest) with false by (symmetry; apply N.leb_gt; exact L).
      rewrite spec_reads_dead. pose proof (run_reads_dead r s1 D) as H. destruct (run_reads s1 r) as [os s2].
      destruct H as (-> & D2 & O2 & P2 & B2). repeat split; auto; [congruence|].
      rewrite P2, B2, B.
      assert (ipos s1 = ipos s).
      { unfold read in R. destruct Hu as (Hg & _ & _ & Hp & _). rewrite Hg in R.
        destruct (_ <? _) eqn:Q; [inversion R; reflexivity|].
        destruct (_ <=? _); [inversion R|]. inversion R; subst s1. destruct D as [Dg _]. discriminate. }
      destruct Hu as (_ & _ & _ & Hp & _). lia.
Qed.


Lemma read_eof s rest n : unread s rest -> n < max_buffer -> (ieof s = true -> rest = []) ->
  let '(s', o) := read s n in
  ieof s' = (ieof s || (is_some o && (ipos s' =? len (ibuf s)))) /\ ibuf s' = ibuf s /\
  (is_some o = false -> dead s' /\ ipos s' = ipos s).
Proof.
  intros Hu Hn He. destruct Hu as (Hg & Hf & Ho & Hp & Hs & Hm). unfold read. rewrite Hg. cbv zeta.
  assert (W : (ipos s + n) mod two64 = ipos s + n).
  { apply N.mod_small. unfold two64, max_buffer in *. change (2 ^ 64) with (2 * 2 ^ 63). lia. }
  rewrite W. destruct (len (ibuf s) <? ipos s + n) eqn:Q.
  - cbn. rewrite orb_false_r. repeat split; auto.
  - apply N.ltb_ge in Q. replace (_ <=? _) with true by (symmetry; apply N.leb_le; lia).
    cbn. repeat split; auto; discriminate.
Qed.

Lemma run_reads_eof sizes : Forall (fun n => n < max_buffer) sizes -> forall s rest, unread s rest ->
  (ieof s = true -> rest = []) ->
  let '(os, s') := run_reads s sizes in
  ieof s' = (ieof s || (existsb is_some os && (ipos s' =? len (ibuf s)))).
Proof.
  induction 1 as [|n r Hn Hr IH]; intros s rest Hu He; cbn [run_reads].
  - cbn. rewrite orb_false_r. reflexivity.
  - pose proof (read_eof s rest n Hu Hn He) as R.
    destruct (read_cases s rest n Hu Hn) as [(p & rest2 & s1 & -> & L & E & Hu1 & Hb)|(s1 & E & D & L & O & B)].
    + rewrite E in *. destruct R as (R1 & R2 & _). cbn [is_some andb] in R1.
      assert (He1 : ieof s1 = true -> rest2 = []).
      { rewrite R1. intros X. apply orb_true_iff in X as [X|X].
        - specialize (He X). apply app_eq_nil in He. tauto.
        - apply N.eqb_eq in X. destruct Hu1 as (_ & _ & _ & Hp1 & _). rewrite R2 in Hp1.
          destruct rest2; [reflexivity|]. rewrite len_cons in Hp1. lia. }
      specialize (IH s1 rest2 Hu1 He1).
      pose proof (run_reads_ok r Hr s1 rest2 Hu1) as K.
      destruct (run_reads s1 r) as [os s2] eqn:Q. rewrite IH, R1, R2. cbn [existsb is_some orb andb].
      destruct (ieof s); cbn [orb]; [reflexivity|].
      destruct (ipos s1 =? len (ibuf s)) eqn:P1; cbn [orb].
      * apply N.eqb_eq in P1. symmetry. apply N.eqb_eq.
        (* nothing left: the position cannot move any more *)
        assert (rest2 = []) by (apply He1; rewrite R1, orb_true_r; reflexivity). subst rest2.
        assert (Hpos : forall l s rest os s', Forall (fun n => n < max_buffer) l -> unread s rest -> run_reads s l = (os, s') -> ipos s <= ipos s' /\ ibuf s' = ibuf s).
        { clear. induction l as [|n l IHl]; intros s rest os s' Hl Hu E; cbn [run_reads] in E; inversion Hl; subst.
          - inversion E; subst. split; [lia|reflexivity].
          - destruct (read s n) as [s1 o] eqn:R1. destruct (run_reads s1 l) as [os2 s2] eqn:R2.
            inversion E; subst.
            destruct (read_cases s rest n Hu H1) as [(p & rest2 & s1' & -> & L & E1 & Hu1 & Hb)|(s1' & E1 & D & L & O & B)];
              rewrite R1 in E1; inversion E1; subst.
            + destruct (IHl _ _ _ _ H2 Hu1 R2) as [P Q]. split; [|congruence].
              destruct Hu as (_ & _ & _ & Hp & _). destruct Hu1 as (_ & _ & _ & Hp1 & _). rewrite Hb in Hp1.
              rewrite len_app in Hp. lia.
            + pose proof (run_reads_dead l s1' D) as K. rewrite R2 in K. destruct K as (_ & _ & _ & P & Q).
              split; [|congruence]. rewrite P.
              unfold read in R1. destruct Hu as (Hg & _). rewrite Hg in R1.
              destruct (_ <? _); [inversion R1; cbn; lia|]. destruct (_ <=? _); [inversion R1|].
              inversion R1; subst. destruct D as [Dg _]. discriminate. }
        destruct (Hpos r s1 [] os s2 Hr Hu1 Q) as [Hge Hbuf].
        destruct K as (_ & _ & Hle). rewrite Hbuf, R2 in Hle. lia.
      * destruct (existsb is_some os) eqn:Ex; cbn [andb]; [reflexivity|].
        (* no later read succeeded: position unchanged *)
        assert (Hstay : forall l s os s', run_reads s l = (os, s') -> existsb is_some os = false -> (igood s = true -> exists rest, unread s rest) -> Forall (fun n => n < max_buffer) l -> ipos s' = ipos s).
        { clear. induction l as [|n l IHl]; intros s os s' E X G Hl; cbn [run_reads] in E; inversion Hl; subst.
          - inversion E; reflexivity.
          - destruct (read s n) as [s1 o] eqn:R1. destruct (run_reads s1 l) as [os2 s2] eqn:R2.
            inversion E; subst. cbn [existsb] in X. apply orb_false_iff in X as [X1 X2].
            destruct o; [discriminate|].
            assert (D : igood s1 = false /\ ipos s1 = ipos s).
            { destruct (igood s) eqn:Hg.
              - destruct (G eq_refl) as [rest Hu].
                destruct (read_cases s rest n Hu H1) as [(p & rest2 & s1' & -> & L & E1 & Hu1 & Hb)|(s1' & E1 & D & L & O & B)].
                + rewrite R1 in E1; inversion E1.
                + rewrite R1 in E1; inversion E1; subst. destruct D as [Dg Df]. split; [exact Dg|].
                  unfold read in R1. rewrite Hg in R1.
                  destruct (_ <? _); [inversion R1; reflexivity|]. destruct (_ <=? _); [inversion R1|].
                  inversion R1; subst. discriminate.
              - unfold read in R1. rewrite Hg in R1. inversion R1; auto. }
            destruct D as [Dg Dp]. rewrite <- Dp. eapply IHl; eauto. rewrite Dg. discriminate. }
        rewrite (Hstay r s1 os s2 Q Ex); [symmetry; exact P1 | | exact Hr]. intros _. exists rest2. exact Hu1.
    + rewrite E in *. destruct R as (R1 & R2 & R3). cbn [is_some andb] in *. rewrite orb_false_r in R1.
      destruct (R3 eq_refl) as [_ Rp].
      pose proof (run_reads_dead r s1 D) as K.
      assert (X : ieof (snd (run_reads s1 r)) = ieof s1).
      { clear - D. revert s1 D. induction r as [|m r IHr]; intros s1 D; cbn [run_reads]; [reflexivity|].
        destruct (read s1 m) as [s2 o] eqn:R. assert (ieof s2 = ieof s1 /\ dead s2) as [Q1 Q2].
        { destruct D as [Dg Df]. unfold read in R. rewrite Dg in R. inversion R; subst. repeat split. }
        specialize (IHr s2 Q2). destruct (run_reads s2 r) as [os s3]. cbn in *. congruence. }
      destruct (run_reads s1 r) as [os s2]. destruct K as (-> & _). cbn [snd] in X. rewrite X, R1.
      cbn [existsb is_some]. replace (existsb is_some (repeat None (length r))) with false.
      * cbn. rewrite orb_false_r. reflexivity.
      * clear. induction r; cbn; auto.
Qed.

(** * Sequences of values *)
Definition enc_any (a : anyval) : list byte := enc (projT1 a) (projT2 a).

Lemma ser_all_enc vs : forall d, ser_all vs (at_end d) = at_end (d ++ flat_map enc_any vs).
Proof. unfold ser_all. apply fold_ser. intros [t v] d. apply ser_enc. Qed.

Lemma de_all_ok vs : Forall (fun a : anyval => readable (projT1 a) = true /\ fits (projT1 a) (projT2 a) = true) vs ->
  forall s rest, unread s (flat_map enc_any vs ++ rest) ->
  exists s', de_all (map (@projT1 _ _) vs) s = (Some vs, s') /\ unread s' rest.
Proof.
  induction 1 as [|[t v] vs [Hr Hf] _ IH]; intros s rest Hu; cbn [map de_all flat_map] in *.
  - exists s. auto.
  - rewrite <- app_assoc in Hu. unfold enc_any at 1 in Hu. cbn [projT1 projT2] in *.
    destruct (reads_back_ok t Hr v (dinit t) s _ Hf Hu) as (s1 & E & Hu1 & _). rewrite E.
    rewrite (merged_dinit _ _ Hf). destruct (IH s1 rest Hu1) as (s2 & E2 & Hu2). rewrite E2.
    exists s2. auto.
Qed.

(** Encodings never coincide and never extend each other. *)
Lemma enc_prefix_free t v1 v2 r1 r2 :
  readable t = true -> fits t v1 = true -> fits t v2 = true -> len (enc t v1 ++ r1) < max_buffer ->
  enc t v1 ++ r1 = enc t v2 ++ r2 -> v1 = v2 /\ r1 = r2.
Proof.
  intros Hr H1 H2 Hm E.
  pose proof (unread_istream_of _ Hm) as U1. pose proof U1 as U2. rewrite E in U2 at 2.
  destruct (reads_back_ok t Hr v1 (dinit t) _ r1 H1 U1) as (s1 & E1 & Hu1 & _).
  destruct (reads_back_ok t Hr v2 (dinit t) _ r2 H2 U2) as (s2 & E2 & Hu2 & _).
  rewrite E1 in E2. inversion E2. rewrite (merged_dinit _ _ H1), (merged_dinit _ _ H2) in *. subst.
  split; [reflexivity|]. eapply app_inv_head. exact E.
Qed.

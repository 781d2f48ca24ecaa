(** Proofs for C77. *)
From stdpp Require Import gmap list numbers.
From Verif Require Import Base ArcModel ArcSpec ArcInv ArcFinal InternModel InternSpec InternInv InternFinal
  NewModel NewSpec NewSim NewStep NewFinal FmtModel FmtSpec.
From Verif Require ArcProps ArenaModel ArenaSpec ArenaInv ArenaFinal.
Local Open Scope N_scope.

Definition hex_val (c : N) : N := if c <=? 57 then c - 48 else c - 87.
Definition add_digit (a c : N) : N := 16 * a + hex_val c.
Definition parse (l : list N) : N := fold_left add_digit l 0.
Fixpoint take_hex (l : list N) : list N :=
  match l with c :: l' => if is_hex c then c :: take_hex l' else [] | [] => [] end.
Fixpoint skip (l : list N) : list N :=
  match l with c :: l' => if is_hex c then l else skip l' | [] => [] end.
Definition decode (l : list N) : N := parse (rev (take_hex (skip (rev l)))).

Lemma small_digit d : d < 16 -> is_hex (hex_digit d) = true /\ hex_val (hex_digit d) = d.
Proof.
  intros Hd. unfold hex_digit, is_hex, hex_val. destruct (N.ltb_spec d 10).
  - replace (48 <=? 48 + d) with true by (symmetry; apply N.leb_le; lia).
    replace (48 + d <=? 57) with true by (symmetry; apply N.leb_le; lia). split; [done|lia].
  - replace (97 <=? 87 + d) with true by (symmetry; apply N.leb_le; lia).
    replace (87 + d <=? 102) with true by (symmetry; apply N.leb_le; lia).
    replace (87 + d <=? 57) with false by (symmetry; apply N.leb_gt; lia).
    rewrite !andb_true_r, orb_true_r. split; [done|lia].
Qed.
Lemma loop_parse f : forall x acc, x < 16 ^ N.of_nat f -> fold_left add_digit (hex_loop f x acc) 0 = fold_left add_digit acc x.
Proof.
  induction f as [|f IH]; intros x acc Hx.
  - simpl in *. assert (x = 0) as -> by lia. done.
  - cbn [hex_loop]. pose proof (N.mod_lt x 16 ltac:(lia)) as Hm. pose proof (N.div_mod x 16 ltac:(lia)) as Hd.
    destruct (small_digit _ Hm) as [_ Hv]. rewrite Nat2N.inj_succ, N.pow_succ_r' in Hx.
    destruct (N.eqb_spec (x / 16) 0) as [H0|H0].
    + cbn [fold_left]. unfold add_digit at 2. rewrite Hv. f_equal. lia.
    + rewrite IH by (apply N.div_lt_upper_bound; lia). cbn [fold_left]. unfold add_digit at 2. rewrite Hv. f_equal. lia.
Qed.
Lemma hex_parse x : parse (hex x) = x.
Proof.
  unfold parse, hex. rewrite loop_parse; [done|]. rewrite Nat2N.inj_succ, N2Nat.id.
  pose proof (N.size_gt x). eapply N.lt_le_trans; [done|].
  transitivity (16 ^ N.size x); [|apply N.pow_le_mono_r; lia]. apply N.pow_le_mono_l. lia.
Qed.
Lemma loop_hex f : forall x acc, Forall (λ c, is_hex c = true) acc -> Forall (λ c, is_hex c = true) (hex_loop f x acc).
Proof.
  induction f as [|f IH]; intros x acc Ha; [done|]. cbn [hex_loop].
  assert (Forall (λ c, is_hex c = true) (hex_digit (x mod 16) :: acc)).
  { constructor; [|done]. apply small_digit. apply N.mod_lt. lia. }
  destruct (_ =? 0); [done|]. by apply IH.
Qed.
Lemma hex_all x : Forall (λ c, is_hex c = true) (hex x).
Proof. apply loop_hex. constructor. Qed.
Lemma loop_len f : forall x acc, (length acc <= length (hex_loop f x acc))%nat.
Proof.
  induction f as [|f IH]; intros x acc; [done|]. cbn [hex_loop]. destruct (_ =? 0); [simpl; lia|].
  etransitivity; [|apply IH]. simpl. lia.
Qed.
Lemma hex_len x : (1 <= length (hex x))%nat.
Proof.
  unfold hex. cbn [hex_loop]. destruct (_ =? 0); [done|]. etransitivity; [|apply loop_len]. done.
Qed.

Lemma take_hex_app l r : Forall (λ c, is_hex c = true) l -> take_hex (l ++ 120 :: r) = l.
Proof. induction 1 as [|c l Hc _ IH]; [done|]. simpl. by rewrite Hc, IH. Qed.
Lemma skip_app l r : Forall (λ c, is_hex c = false) l -> skip (l ++ r) = skip r.
Proof. induction 1 as [|c l Hc _ IH]; [done|]. simpl. by rewrite Hc. Qed.
Lemma skip_hex l r : (1 <= length l)%nat -> Forall (λ c, is_hex c = true) l -> skip (l ++ r) = l ++ r.
Proof. intros Hn Hl. destruct Hl as [|c l Hc _]; [simpl in Hn; lia|]. simpl. by rewrite Hc. Qed.
Lemma parse_zeros n l : parse (replicate n 48 ++ l) = parse l.
Proof. unfold parse. induction n as [|n IH]; [done|]. simpl. exact IH. Qed.
Lemma decode_ok pre n a post :
  Forall (λ c, is_hex c = false) post -> decode (pre ++ [48; 120] ++ replicate n 48 ++ hex a ++ post) = a.
Proof.
  intros Hp. unfold decode. rewrite !rev_app_distr. rewrite <- !app_assoc. rewrite skip_app by by apply Forall_rev.
  assert (Forall (λ c, is_hex c = true) (rev (hex a) ++ rev (replicate n 48))) as Hall.
  { apply Forall_app. split; apply Forall_rev; [apply hex_all|]. by apply Forall_replicate. }
  rewrite app_assoc. rewrite skip_hex; [|rewrite app_length, rev_length; pose proof (hex_len a); lia|done].
  change (rev [48; 120] ++ rev pre) with (120 :: 48 :: rev pre). rewrite take_hex_app by done.
  rewrite rev_app_distr, !rev_involutive, parse_zeros. apply hex_parse.
Qed.

Lemma pad_shape o buf :
  (f_zero o = true \/ f_align o = FNone \/ f_align o = FRight \/ is_hex (f_fill o) = false \/
    match f_width o with None => True | Some w => (w <= length ((if f_plus o then [43%N] else []) ++ [48; 120]%N ++ buf))%nat end) ->
  exists pre n post, pad_integral o [48; 120] buf = pre ++ [48; 120] ++ replicate n 48 ++ buf ++ post /\
    Forall (λ c, is_hex c = false) post.
Proof.
  intros Ho. unfold pad_integral. rewrite <- app_assoc. set (pl := if f_plus o then [43] else []) in *.
  assert (forall l : list N, exists pre n post, pl ++ [48; 120] ++ l = pre ++ [48; 120] ++ replicate n 48 ++ l ++ post /\
    Forall (λ c, is_hex c = false) post) as Hpl.
  { intros l. exists pl, 0%nat, []. simpl. rewrite app_nil_r. by split. }
  destruct (f_width o) as [w|]; [|apply Hpl]. destruct (Nat.leb_spec w (length (pl ++ [48; 120] ++ buf))) as [Hw|Hw]; [apply Hpl|].
  destruct (f_zero o) eqn:Hz.
  - eexists pl, _, []. rewrite app_nil_r, <- !app_assoc. by split.
  - unfold pads. eexists (replicate _ _ ++ pl), 0%nat, _. simpl. rewrite <- !app_assoc. simpl. split; [done|].
    destruct Ho as [?|[->|[->|[Hf|?]]]]; [done| | | |lia].
    1,2: rewrite Nat.sub_diag; constructor.
    by apply Forall_replicate.
Qed.
Lemma pointer_decode W o a : legible o -> decode (pointer_fmt W o a) = a.
Proof.
  intros Ho. unfold pointer_fmt.
  destruct (pad_shape (if f_alt o then FOpts (f_fill o) (f_align o) (f_plus o) true true
       (match f_width o with None => Some (W / 4 + 2)%nat | w => w end) else o) (hex a)) as (pre&n&post&->&Hp).
  - destruct (f_alt o) eqn:Ha; [by left|]. destruct Ho as [?|[?|[?|[?|[?|Hw]]]]]; try tauto; [congruence|].
    do 4 right. destruct (f_width o) as [w|]; [|done]. rewrite app_length. pose proof (hex_len a). simpl.
    destruct (f_plus o); simpl; lia.
  - by apply decode_ok.
Qed.

(** Otherwise there are two addresses with the same text. *)
Lemma hex_char c : is_hex c = true -> exists d, d < 16 /\ c = hex_digit d.
Proof.
  intros Hc. exists (hex_val c). unfold is_hex in Hc. unfold hex_digit, hex_val.
  apply orb_true_iff in Hc as [[H1 H2]%andb_true_iff|[H1 H2]%andb_true_iff]; apply N.leb_le in H1, H2.
  - replace (c <=? 57) with true by (symmetry; by apply N.leb_le).
    replace (c - 48 <? 10) with true by (symmetry; apply N.ltb_lt; lia). lia.
  - replace (c <=? 57) with false by (symmetry; apply N.leb_gt; lia).
    replace (c - 87 <? 10) with false by (symmetry; apply N.ltb_ge; lia). lia.
Qed.
Lemma digits d : d < 16 -> hex (16 + d) = [49; hex_digit d] /\ hex (272 + d) = [49; 49; hex_digit d].
Proof.
  intros Hd.
  assert (Forall (λ d, hex (16 + d) = [49; hex_digit d] /\ hex (272 + d) = [49; 49; hex_digit d]) (N.of_nat <$> seq 0 16)) as H.
  { vm_compute. repeat constructor. }
  rewrite Forall_forall in H. apply H. apply elem_of_list_In, elem_of_list_fmap. exists (N.to_nat d). split; [by rewrite N2Nat.id|].
  apply elem_of_seq. lia.
Qed.
Lemma illegible W o : ~ legible o -> exists a b, a < 1000 /\ b < 1000 /\ a <> b /\ pointer_fmt W o a = pointer_fmt W o b.
Proof.
  intros Ho. unfold legible in Ho.
  destruct (f_alt o) eqn:Ha; [tauto|]. destruct (f_zero o) eqn:Hz; [tauto|]. destruct (f_width o) as [w|] eqn:Hw; [|tauto].
  destruct (is_hex (f_fill o)) eqn:Hf; [|tauto]. destruct (hex_char _ Hf) as (d&Hd&Hc). destruct (digits d Hd) as [D1 D2].
  set (k := if f_plus o then 4%nat else 3%nat) in *.
  assert (k < w)%nat as Hk. { destruct (decide (w <= k)%nat); [tauto|lia]. }
  set (pl := if f_plus o then [43] else [] : list N). assert (length pl = k - 3)%nat as Hpl by (by unfold pl, k; destruct (f_plus o)).
  assert (3 <= k)%nat as Hk3 by (unfold k; destruct (f_plus o); lia).
  (* what is written for digits [buf] *)
  assert (forall a, (k - 1 + length (hex a) <= w)%nat -> pointer_fmt W o a =
    let n := (w - (k - 1 + length (hex a)))%nat in
    let pre := match f_align o with FLeft => O | FCenter => Nat.div2 n | FNone | FRight => n end in
    replicate pre (f_fill o) ++ pl ++ [48; 120] ++ hex a ++ replicate (n - pre) (f_fill o)) as Hfmt.
  { intros a Hl. unfold pointer_fmt. rewrite Ha. unfold pad_integral. rewrite Hw, Hz. fold pl.
    rewrite !app_length, Hpl. simpl length. replace (k - 3 + 2 + length (hex a))%nat with (k - 1 + length (hex a))%nat by lia.
    destruct (Nat.leb_spec w (k - 1 + length (hex a))).
    - replace (w - (k - 1 + length (hex a)))%nat with 0%nat by lia. simpl.
      destruct (f_align o); simpl; by rewrite app_nil_r, <- app_assoc.
    - unfold pads. by rewrite <- !app_assoc. }
  assert (hex 1 = [49]) as X1 by done. assert (hex 17 = [49; 49]) as X2 by done.
  destruct (f_align o) eqn:Hal; [tauto| | |tauto].
  - exists 1, (16 + d). split_and!; [lia|lia|lia|]. rewrite !Hfmt by (rewrite ?X1, ?D1; simpl; lia). rewrite X1, D1. simpl.
    do 3 f_equal. f_equal. rewrite <- Hc. replace (w - (k - 1 + 1) - 0)%nat with (S (w - (k - 1 + 2)))%nat by lia. simpl.
    by rewrite Nat.sub_0_r.
  - destruct (Nat.Even_or_Odd (w - k)) as [[m Hm]|[m Hm]].
    + (* an even number of characters is written with one digit: take two and three *)
      destruct m as [|m]; [lia|].
      exists 17, (272 + d). split_and!; [lia|lia|lia|].
      rewrite !Hfmt by (rewrite ?X2, ?D2; simpl; lia). rewrite X2, D2. simpl length.
      replace (w - (k - 1 + 2))%nat with (S (2 * m)) by lia. replace (w - (k - 1 + 3))%nat with (2 * m)%nat by lia.
      cbv zeta. rewrite Nat.div2_succ_double, Nat.div2_double. replace (S (2 * m) - m)%nat with (S m) by lia.
      replace (2 * m - m)%nat with m by lia. simpl. by rewrite Hc.
    + exists 1, (16 + d). split_and!; [lia|lia|lia|].
      rewrite !Hfmt by (rewrite ?X1, ?D1; simpl; lia). rewrite X1, D1. simpl length.
      replace (w - (k - 1 + 1))%nat with (S (2 * m)) by lia. replace (w - (k - 1 + 2))%nat with (2 * m)%nat by lia.
      cbv zeta. rewrite Nat.div2_succ_double, Nat.div2_double. replace (S (2 * m) - m)%nat with (S m) by lia.
      replace (2 * m - m)%nat with m by lia. simpl. by rewrite Hc.
Qed.
Theorem legible_iff W o :
  legible o <-> forall a b, a < 1000 -> b < 1000 -> pointer_fmt W o a = pointer_fmt W o b -> a = b.
Proof.
  split.
  - intros Ho a b _ _ H. rewrite <- (pointer_decode W o a Ho), <- (pointer_decode W o b Ho). by rewrite H.
  - intros H. assert (legible o \/ ~ legible o) as [?|Hn]; [|done|].
    + unfold legible. destruct (f_alt o), (f_zero o), (f_align o), (is_hex (f_fill o)); try tauto;
      destruct (f_width o) as [w|]; try tauto; destruct (decide (w <= if f_plus o then 4 else 3)%nat); try tauto;
      right; intros [?|[?|[?|[?|[?|?]]]]]; done.
    + destruct (illegible W o Hn) as (a&b&H1&H2&Hab&He). exfalso. apply Hab. by apply H.
Qed.
Lemma fmt_inj W o a b : legible o -> pointer_fmt W o a = pointer_fmt W o b -> a = b.
Proof. intros Ho H. rewrite <- (pointer_decode W o a Ho), <- (pointer_decode W o b Ho). by rewrite H. Qed.

Section arc.
  Context {V : Type} (E : tyenv V) (HL : lawful E) (HW : wide E).
  Theorem arc_text_iff W o ls st p q :
    legible o -> bounded E ls -> run (step E) init ls = Some st -> alive E st p -> alive E st q ->
    exists u v, data st p = Some u /\ data st q = Some v /\
      (arc_ptr_text W o p = arc_ptr_text W o q <-> te_eq E u v = true).
  Proof.
    intros Ho Hb Hr Hp Hq. destruct (handles_eq_iff E HL HW ls st p q Hb Hr Hp Hq) as (u&v&Hu&Hv&He).
    exists u, v. split_and!; [done|done|]. rewrite <- He. unfold handle_eqb, arc_ptr_text. rewrite Nat.eqb_eq. split.
    - intros H%(fmt_inj W o _ _ Ho). lia.
    - by intros ->.
  Qed.
  Theorem arc_shows {T} (show : fopts -> V -> T) fo x ls st t v p :
    bounded E ls -> run (step E) init ls = Some st -> EvNew t v p ∈ st_log st -> alive E st p ->
    (forall d, te_eq E v d = true -> show fo d = x) -> fmt_value (data st) show fo p = Some x.
  Proof.
    intros Hb Hr Hin Hp Hs. destruct (new_reads E HL HW ls st t v p Hb Hr Hin Hp) as (d&Hd&He).
    unfold fmt_value. rewrite Hd. simpl. by rewrite Hs.
  Qed.
  Theorem arc_shows_always {T} (show : fopts -> V -> T) fo ls1 ls2 st1 st2 p :
    bounded E (ls1 ++ ls2) -> run (step E) init ls1 = Some st1 -> run (step E) st1 ls2 = Some st2 ->
    alive E st1 p -> alive E st2 p ->
    exists v, data st1 p = Some v /\ fmt_value (data st2) show fo p = Some (show fo v).
  Proof.
    intros Hb Hr1 Hr2 H1 H2. destruct (same_object E HL HW ls1 ls2 st1 st2 p Hb Hr1 Hr2 H1 H2) as (d&D1&D2).
    exists d. unfold fmt_value. by rewrite D2.
  Qed.
End arc.

Section intern.
  Context {V Q : Type} (E : ienv V Q).
  Theorem intern_shows {T} (show : fopts -> V -> T) fo x ls1 ls2 st1 st2 t o p :
    ilawful E -> icoherent E -> run (istep E) iinit ls1 = Some st1 -> EvRet t o (RPtr p) ∈ i_log st1 ->
    run (istep E) st1 ls2 = Some st2 -> (forall d, asks E o d -> show fo d = x) ->
    fmt_value (iread st2) show fo p = Some x.
  Proof.
    intros HL HC Hr1 Hin Hr2 Hs. destruct (value_eq E _ _ _ _ _ HL HC Hr1 Hin) as (d&Hd&Ha).
    destruct (handle_valid E _ _ _ _ _ _ _ Hr1 Hin Hr2) as (v&_&_&A1&A2&_).
    unfold fmt_value. unfold iread in *. rewrite A1 in Hd. rewrite A2. simpl in *. simplify_eq. by rewrite Hs.
  Qed.
  Theorem new_shows {T} (show : fopts -> V -> T) fo x ls1 ls2 s1 s2 t o p :
    ilawful E -> icoherent E -> run (nstep E) ninit ls1 = Some s1 -> EvRet t o (RPtr p) ∈ n_log s1 ->
    run (nstep E) s1 ls2 = Some s2 -> (forall d, asks E o d -> show fo d = x) ->
    fmt_value (iread (nmem s2)) show fo p = Some x.
  Proof.
    intros HL HC Hr1 Hin Hr2 Hs. destruct (n_result E _ _ _ _ _ HL HC Hr1 Hin) as (d&Hd&Ha).
    destruct (n_handle_valid E _ _ _ _ _ _ _ Hr1 Hin Hr2) as (v&_&_&A1&A2&_).
    unfold fmt_value. unfold iread in *. change (i_objs (nmem s1)) with (n_objs s1) in Hd.
    change (i_objs (nmem s2)) with (n_objs s2). rewrite A1 in Hd. rewrite A2. simpl in *. simplify_eq. by rewrite Hs.
  Qed.

  Lemma text_iff full W fo p1 p2 :
    legible fo -> (full = false -> ip_addr p1 = ip_addr p2 -> ip_meta p1 = ip_meta p2) ->
    (ptr_text full W fo p1 = ptr_text full W fo p2 <-> iptr_eqb p1 p2 = true).
  Proof.
    intros Ho Hm. unfold ptr_text, iptr_eqb. rewrite andb_true_iff, !Nat.eqb_eq. split.
    - intros [= H1 H2]. apply (fmt_inj W fo _ _ Ho), Nat2N.inj in H1. split; [done|]. destruct full; [by simplify_eq|by apply Hm].
    - by intros [-> ->].
  Qed.
  Theorem intern_text_iff full W fo ls st t1 o1 p1 v1 t2 o2 p2 v2 :
    legible fo -> ilawful E -> icoherent E -> zst_eq E -> no_clear ls -> run (istep E) iinit ls = Some st ->
    EvRet t1 o1 (RPtr p1) ∈ i_log st -> EvRet t2 o2 (RPtr p2) ∈ i_log st -> op_ty E o1 = op_ty E o2 ->
    iread st p1 = Some v1 -> iread st p2 = Some v2 ->
    full = true \/ ie_meta E v1 = ie_meta E v2 \/ is_zst E v1 = false /\ is_zst E v2 = false ->
    (ptr_text full W fo p1 = ptr_text full W fo p2 <-> ie_eq E v1 v2 = true).
  Proof.
    intros Ho HL HC HZ Hnc Hr H1 H2 Ht Hv1 Hv2 Hd.
    rewrite <- (handles_eq E ls st t1 o1 p1 t2 o2 p2 v1 v2 HL HC HZ Hnc Hr H1 H2 Ht Hv1 Hv2).
    apply text_iff; [done|]. intros -> Ha.
    destruct (handle_valid E ls [] st st _ _ _ Hr H1 eq_refl) as (w1&_&M1&A1&_).
    destruct (handle_valid E ls [] st st _ _ _ Hr H2 eq_refl) as (w2&_&M2&A2&_).
    unfold iread in *. rewrite A1 in Hv1. rewrite A2 in Hv2. simpl in *. simplify_eq. rewrite M1, M2.
    destruct Hd as [?|[?|[Z1 Z2]]]; [done|done|].
    pose proof (v_addr _ _ (reach_inv E _ _ Hr) _ _ _ _ A1 A2 Z1 Z2 Ha) as Hs. rewrite Hs in A1. congruence.
  Qed.
  Theorem new_text_iff full W fo ls s t1 o1 p1 v1 t2 o2 p2 v2 :
    legible fo -> ilawful E -> icoherent E -> zst_eq E -> no_clear ls -> run (nstep E) ninit ls = Some s ->
    EvRet t1 o1 (RPtr p1) ∈ n_log s -> EvRet t2 o2 (RPtr p2) ∈ n_log s -> op_ty E o1 = op_ty E o2 ->
    iread (nmem s) p1 = Some v1 -> iread (nmem s) p2 = Some v2 ->
    full = true \/ ie_meta E v1 = ie_meta E v2 \/ is_zst E v1 = false /\ is_zst E v2 = false ->
    (ptr_text full W fo p1 = ptr_text full W fo p2 <-> ie_eq E v1 v2 = true).
  Proof.
    intros Ho HL HC HZ Hnc Hr H1 H2 Ht Hv1 Hv2 Hd.
    rewrite <- (n_unique E ls s t1 o1 p1 t2 o2 p2 v1 v2 HL HC HZ Hnc Hr H1 H2 Ht Hv1 Hv2).
    apply text_iff; [done|]. intros -> Ha.
    destruct (n_handle_valid E ls [] s s _ _ _ Hr H1 eq_refl) as (w1&_&M1&A1&_).
    destruct (n_handle_valid E ls [] s s _ _ _ Hr H2 eq_refl) as (w2&_&M2&A2&_).
    unfold iread in *. change (i_objs (nmem s)) with (n_objs s) in Hv1, Hv2.
    rewrite A1 in Hv1. rewrite A2 in Hv2. simpl in *. simplify_eq. rewrite M1, M2.
    destruct Hd as [?|[?|[Z1 Z2]]]; [done|done|].
    destruct (nreach_inv E _ _ Hr) as (st&HI&_&HR). pose proof (r_base _ _ _ HR) as HR0.
    rewrite <- (NewSim.r_objs _ _ _ HR0) in A1, A2.
    pose proof (v_addr _ _ HI _ _ _ _ A1 A2 Z1 Z2 Ha) as Hs. rewrite Hs in A1. congruence.
  Qed.

  Theorem intern_shows_always {T} (show : fopts -> V -> T) fo ls1 ls2 st1 st2 t o p :
    run (istep E) iinit ls1 = Some st1 -> EvRet t o (RPtr p) ∈ i_log st1 -> run (istep E) st1 ls2 = Some st2 ->
    exists v, iread st1 p = Some v /\ fmt_value (iread st2) show fo p = Some (show fo v).
  Proof.
    intros Hr1 Hin Hr2. destruct (handle_valid E _ _ _ _ _ _ _ Hr1 Hin Hr2) as (v&_&_&A1&A2&_).
    exists v. unfold fmt_value, iread. by rewrite A1, A2.
  Qed.
  Theorem new_shows_always {T} (show : fopts -> V -> T) fo ls1 ls2 s1 s2 t o p :
    run (nstep E) ninit ls1 = Some s1 -> EvRet t o (RPtr p) ∈ n_log s1 -> run (nstep E) s1 ls2 = Some s2 ->
    exists v, iread (nmem s1) p = Some v /\ fmt_value (iread (nmem s2)) show fo p = Some (show fo v).
  Proof.
    intros Hr1 Hin Hr2. destruct (n_handle_valid E _ _ _ _ _ _ _ Hr1 Hin Hr2) as (v&_&_&A1&A2&_).
    exists v. unfold fmt_value, iread. change (i_objs (nmem s1)) with (n_objs s1).
    change (i_objs (nmem s2)) with (n_objs s2). by rewrite A1, A2.
  Qed.
  Import ArenaModel ArenaSpec ArenaInv ArenaFinal.
  Theorem arena_shows_always {T} (show : fopts -> V -> T) fo ls1 ls2 st1 st2 t r o b p :
    run (astep E) ainit ls1 = Some st1 -> AvRet t r o b (AP p) ∈ a_log st1 -> run (astep E) st1 ls2 = Some st2 ->
    is_Some (a_arenas st2 !! r) ->
    exists v, a_read st1 p = Some v /\ fmt_value (a_read st2) show fo p = Some (show fo v).
  Proof.
    intros Hr1 Hin Hr2 Hx. destruct (arena_handle_valid E _ _ _ _ _ _ _ _ _ Hr1 Hin Hr2 Hx) as (v&A1&A2).
    exists v. unfold fmt_value, a_read. by rewrite A1, A2.
  Qed.
  Theorem arena_shows {T} (show : fopts -> V -> T) fo x ls st t r o b p :
    ilawful E -> icoherent E -> run (astep E) ainit ls = Some st -> AvRet t r o b (AP p) ∈ a_log st ->
    is_Some (a_arenas st !! r) -> (forall d, a_asks E o d -> show fo d = x) ->
    fmt_value (a_read st) show fo p = Some x.
  Proof.
    intros HL HC Hr Hin Hx Hs. destruct (arena_result_asked E _ _ _ _ _ _ _ HL HC Hr Hin Hx) as (d&Hd&Ha).
    unfold fmt_value. rewrite Hd. simpl. by rewrite Hs.
  Qed.
End intern.

(** The layout. *)
Lemma digit_lookup d : d < 16 -> digit_chars !! N.to_nat d = Some (hex_digit d).
Proof.
  intros Hd. assert (Forall (λ d, digit_chars !! N.to_nat d = Some (hex_digit d)) (N.of_nat <$> seq 0 16)) as H.
  { vm_compute. repeat constructor. }
  rewrite List.Forall_forall in H. apply H, elem_of_list_In, elem_of_list_fmap. exists (N.to_nat d). split; [lia|].
  apply elem_of_seq. lia.
Qed.
Lemma numeral_zero n : numeral [48] n -> n = 0.
Proof.
  intros Hn. remember [48] as l0. destruct Hn as [|l n d c Hn Hd]; [done|].
  destruct l as [|y l]; simpl in *; [|by destruct l]. injection Heql0 as ->.
  remember [] as l1. destruct Hn as [|l n d' c Hn Hd']; [|by destruct l].
  do 16 (destruct d as [|d]; [done|]). done.
Qed.
Lemma loop_numeral f : forall x acc, x < 16 ^ N.of_nat f -> (0 < f)%nat ->
  exists ds, hex_loop f x acc = ds ++ acc /\ numeral ds x /\ ds <> [] /\ (head ds = Some 48 -> ds = [48]).
Proof.
  induction f as [|f IH]; intros x acc Hx Hf; [lia|]. cbn [hex_loop].
  assert (x mod 16 < 16) as Hm by (apply N.mod_lt; lia). pose proof (N.div_mod x 16 ltac:(lia)) as Hdm.
  pose proof (digit_lookup _ Hm) as Hd. destruct (N.eqb_spec (x / 16) 0) as [H0|H0].
  - exists [hex_digit (x mod 16)]. split_and!; [done| |done|].
    + change [hex_digit (x mod 16)] with ([] ++ [hex_digit (x mod 16)]).
      replace x with (16 * 0 + N.of_nat (N.to_nat (x mod 16))) at 2 by lia. by constructor; [constructor|].
    + simpl. intros [= ->]. done.
  - assert (0 < f)%nat as Hf'. { destruct f; [|lia]. simpl in Hx. rewrite N.div_small in H0 by lia. done. }
    destruct (IH (x / 16) (hex_digit (x mod 16) :: acc)) as (ds&Hl&Hn&Hne&Hh); [|done|].
    { apply N.div_lt_upper_bound; [lia|]. rewrite Nat2N.inj_succ, N.pow_succ_r' in Hx. done. }
    exists (ds ++ [hex_digit (x mod 16)]). split_and!.
    + rewrite Hl. by rewrite <- app_assoc.
    + replace x with (16 * (x / 16) + N.of_nat (N.to_nat (x mod 16))) at 2 by lia. by constructor.
    + by destruct ds.
    + destruct ds as [|c ds]; [done|]. simpl. intros Hc. specialize (Hh Hc). exfalso. apply H0.
      rewrite Hh in Hn. by apply numeral_zero.
Qed.
Lemma hex_numeral x : numeral (hex x) x /\ hex x <> [] /\ (head (hex x) = Some 48 -> hex x = [48]).
Proof.
  destruct (loop_numeral (S (N.to_nat (N.size x))) x []) as (ds&Hl&?&?&?); [|lia|].
  - rewrite Nat2N.inj_succ, N2Nat.id. pose proof (N.size_gt x). eapply N.lt_le_trans; [done|].
    etransitivity; [apply (N.pow_le_mono_l 2 16); lia|]. apply N.pow_le_mono_r; lia.
  - rewrite app_nil_r in Hl. unfold hex. rewrite Hl. done.
Qed.
Lemma all_eq n (c : N) : Forall (eq c) (replicate n c).
Proof. apply Forall_replicate. done. Qed.
Lemma pad_laid o a W :
  (f_alt o = true -> f_zero o = true /\ f_width o <> None) -> laid_out W o a (pad_integral o [48; 120]%N (hex a)).
Proof.
  destruct (hex_numeral a) as (Hn&Hne&Hh). destruct o as [fill al plus alt zero wi]. intros Halt.
  unfold laid_out, asked_width, pad_integral. cbn -[hex Nat.div app length] in *.
  set (hd := if plus then [43] else []).
  assert (forall zeros pre post, length (pre ++ hd ++ [48; 120]%N ++ zeros ++ hex a ++ post) =
    (length pre + length zeros + length post + length (hd ++ [48; 120]%N ++ hex a))%nat) as Hlen.
  { intros. rewrite !app_length. lia. }
  assert (0 < length (hex a))%nat as Hpos by (pose proof (hex_len a); lia).
  assert (forall w, (w <= length (hd ++ [48; 120]%N ++ hex a))%nat -> wi = Some w \/ wi = None /\ alt = false /\ w = O ->
     exists pre zeros ds post, (hd ++ [48; 120]%N) ++ hex a = pre ++ hd ++ [48; 120]%N ++ zeros ++ ds ++ post /\
    numeral ds a /\ (ds <> [] /\ (head ds = Some 48 -> ds = [48])) /\
    Forall (eq 48) zeros /\ Forall (eq fill) (pre ++ post) /\
    (if alt || zero then pre = [] /\ post = [] else zeros = []) /\
    length ((hd ++ [48; 120]%N) ++ hex a) = max w (length (hd ++ [48; 120]%N ++ ds)) /\
    match al with
    | FLeft => pre = []
    | FNone | FRight => post = []
    | FCenter => (length pre <= length post <= S (length pre))%nat
    end) as Hshort.
  { intros w Hw _. exists [], [], (hex a), []. rewrite app_nil_r, <- app_assoc. split_and!; try first [done|by constructor].
    - by destruct (alt || zero).
    - lia.
    - destruct al; simpl; [done|done|lia|done]. }
  destruct wi as [w|].
  - rewrite <- app_assoc. destruct (Nat.leb_spec w (length (hd ++ [48; 120]%N ++ hex a))) as [Hw|Hw].
    { specialize (Hshort w Hw ltac:(by left)). by rewrite <- app_assoc in Hshort. }
    destruct zero.
    + exists [], (replicate (w - length (hd ++ [48; 120]%N ++ hex a)) 48), (hex a), []. rewrite app_nil_r.
      split_and!; try first [done|by constructor].
      * by rewrite <- !app_assoc.
      * apply all_eq.
      * by rewrite orb_true_r.
      * rewrite !app_length, replicate_length in *. simpl in *. lia.
      * destruct al; simpl; [done|done|lia|done].
    + destruct alt; [by destruct (Halt eq_refl)|]. unfold pads. cbn -[hex Nat.div2 app length].
      set (n := (w - length (hd ++ [48; 120]%N ++ hex a))%nat).
      set (pre := match al with FLeft => O | FCenter => Nat.div2 n | _ => n end).
      assert (pre <= n)%nat as Hpre. { subst pre. destruct al; try lia. pose proof (Nat.div2_decr n n). lia. }
      exists (replicate pre fill), [], (hex a), (replicate (n - pre) fill). split_and!; try first [done|by constructor].
      * by rewrite <- !app_assoc.
      * apply Forall_app; split; apply all_eq.
      * clearbody pre. subst n. rewrite !app_length, !replicate_length in *. simpl in *. lia.
      * rewrite !replicate_length. subst pre. destruct al; simpl; try done.
        -- by rewrite Nat.sub_diag.
        -- pose proof (Nat.div2_odd n). destruct (Nat.odd n); simpl in *; lia.
        -- by rewrite Nat.sub_diag.
  - destruct alt; [by destruct (Halt eq_refl)|]. apply (Hshort O); [lia|by right].
Qed.
Theorem pointer_laid_out W o a : laid_out W o a (pointer_fmt W o a).
Proof.
  unfold pointer_fmt. destruct (f_alt o) eqn:Ha; [|apply pad_laid; congruence].
  destruct o as [fill al plus alt zero wi]. cbn -[pad_integral Nat.div] in *. subst alt.
  assert (laid_out W (FOpts fill al plus true true (match wi with None => Some (W / 4 + 2)%nat | w => w end)) a
    (pad_integral (FOpts fill al plus true true (match wi with None => Some (W / 4 + 2)%nat | w => w end)) [48; 120] (hex a))) as H.
  { apply pad_laid. simpl. by destruct wi. }
  revert H. unfold laid_out, asked_width. cbn -[pad_integral Nat.div]. by destruct wi.
Qed.
Theorem legible_exact W o :
  (legible o -> forall a b, pointer_fmt W o a = pointer_fmt W o b -> a = b) /\
  (~ legible o -> exists a b, (a < 1000 /\ b < 1000) /\ a <> b /\ pointer_fmt W o a = pointer_fmt W o b).
Proof.
  split; [intros Ho a b; by apply fmt_inj|]. intros (a&b&?&?&?&?)%(illegible W). by exists a, b.
Qed.

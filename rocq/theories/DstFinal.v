(** Proofs about the layout and contents of [RefCount<[T]>] boxes. *)
From stdpp Require Import gmap list numbers.
From Verif Require Import Base DstModel.
Require Import ZifyBool ZifyNat ZifyN.
Local Open Scope N_scope.

(** ** Rounding *)
Lemma next_multiple_ge x a : a <> 0 -> x <= next_multiple x a.
Proof. intros Ha. unfold next_multiple. pose proof (N.div_mod (x + (a - 1)) a Ha). pose proof (N.mod_lt (x + (a - 1)) a Ha). nia. Qed.
Lemma next_multiple_lt x a : a <> 0 -> next_multiple x a < x + a.
Proof. intros Ha. unfold next_multiple. pose proof (N.div_mod (x + (a - 1)) a Ha). nia. Qed.
Lemma next_multiple_mod x a : a <> 0 -> next_multiple x a mod a = 0.
Proof. intros Ha. unfold next_multiple. by apply N.mod_mul. Qed.
Lemma next_multiple_least x a y : a <> 0 -> y mod a = 0 -> x <= y -> next_multiple x a <= y.
Proof.
  intros Ha Hy Hle. apply N.mod_divide in Hy as [q ->]; [|done]. pose proof (next_multiple_lt x a Ha).
  unfold next_multiple in *. set (r := (x + (a - 1)) / a) in *. assert (r < q + 1) by nia. nia.
Qed.
Lemma pow2_nz n : 2 ^ n <> 0.
Proof. apply N.pow_nonzero. lia. Qed.
Lemma round_up_bits_eq j x k : x + (2 ^ k - 1) < 2 ^ bits j -> round_up_bits j x (2 ^ k) = next_multiple x (2 ^ k).
Proof.
  intros H. unfold round_up_bits, next_multiple, wrap. rewrite N.mod_small by done.
  replace (2 ^ k - 1) with (N.ones k) by (rewrite N.ones_equiv; pose proof (pow2_nz k); lia).
  by rewrite N.ldiff_ones_r, N.shiftl_mul_pow2, N.shiftr_div_pow2.
Qed.
Lemma pow2_le a b : a <= b -> 2 ^ a <= 2 ^ b.
Proof. intros. apply N.pow_le_mono_r; lia. Qed.
Lemma pow2_mod a b : a <= b -> 2 ^ b mod 2 ^ a = 0.
Proof.
  intros H. apply N.mod_divide; [apply pow2_nz|]. exists (2 ^ (b - a)). rewrite <- N.pow_add_r. f_equal. lia.
Qed.
Lemma pow2_max a b : N.max (2 ^ a) (2 ^ b) = 2 ^ N.max a b.
Proof.
  destruct (N.le_ge_cases a b) as [H|H]; pose proof (pow2_le _ _ H).
  - rewrite !N.max_r; done.
  - rewrite !N.max_l; done.
Qed.

Section layout.
  Context (j k esz n : N).
  Hypothesis Hk : k < bits j.
  Let M := 2 ^ (bits j - 1).
  Lemma bits_pos : 8 <= bits j.
  Proof. clear Hk. unfold bits, word. pose proof (pow2_nz j). lia. Qed.
  Lemma pow_bits : 2 ^ bits j = 2 * M.
  Proof. clear Hk. unfold M. pose proof bits_pos. rewrite <- N.pow_succ_r'. f_equal. lia. Qed.
  Lemma j_lt : j <= bits j - 1.
  Proof. clear Hk. unfold bits, word. pose proof (N.pow_gt_lin_r 2 j). pose proof (pow2_nz j). lia. Qed.
  Lemma align_pow : dst_align j k = 2 ^ N.max j k.
  Proof. clear Hk. apply pow2_max. Qed.
  Lemma align_nz : dst_align j k <> 0.
  Proof. clear Hk. rewrite align_pow. apply pow2_nz. Qed.
  Lemma align_le : dst_align j k <= M.
  Proof. rewrite align_pow. apply pow2_le. pose proof j_lt. lia. Qed.
  Lemma isize_M : isize_max j = M - 1.
  Proof. clear Hk. done. Qed.
  Lemma M_pos : M <> 0.
  Proof. clear Hk. apply pow2_nz. Qed.

  Lemma dst_size_small : dst_size j esz k n <= isize_max j <-> data_offset j k + esz * n <= M - dst_align j k.
  Proof.
    pose proof align_nz as HA. pose proof align_le as HAM. pose proof M_pos. unfold dst_size. rewrite isize_M.
    assert ((M - dst_align j k) mod dst_align j k = 0) as Hmod.
    { assert (M mod dst_align j k = 0) as H0. { rewrite align_pow. apply pow2_mod. pose proof j_lt. lia. }
      apply N.mod_divide in H0 as [q Hq]; [|done]. apply N.mod_divide; [done|]. exists (q - 1). nia. }
    split.
    - intros Hle. set (x := data_offset j k + esz * n) in *.
      pose proof (next_multiple_ge x _ HA). pose proof (next_multiple_mod x _ HA) as Hm.
      assert (M mod dst_align j k = 0) as HM0. { rewrite align_pow. apply pow2_mod. pose proof j_lt. lia. }
      apply N.mod_divide in HM0 as [q Hq]; [|done]. apply N.mod_divide in Hm as [r Hr]; [|done].
      assert (r < q) by nia. nia.
    - intros Hle. pose proof (next_multiple_least _ _ _ HA Hmod Hle). lia.
  Qed.

  Lemma layout_exact : slice_layout j esz k n =
    if dst_size j esz k n <=? isize_max j then Some (dst_size j esz k n, dst_align j k) else None.
  Proof.
    pose proof align_nz as HA. pose proof align_le as HAM. pose proof M_pos as HM. pose proof pow_bits as Hpb. pose proof (pow2_nz k) as Hk0.
    assert (2 ^ k <= M) as HkM by (apply pow2_le; lia).
    assert (word j <= M) as HwM by (apply pow2_le, j_lt).
    assert (2 ^ k <= dst_align j k) as HkA by (unfold dst_align; lia).
    assert (forall a, max_size_for_align j a = M - a) as Hmax.
    { intros a. unfold max_size_for_align. rewrite isize_M. f_equal. lia. }
    destruct (N.leb_spec (dst_size j esz k n) (isize_max j)) as [Hs|Hs].
    - rewrite dst_size_small in Hs.
      assert (esz * n <= M - 2 ^ k) as Hen by lia.
      assert (array_layout j esz (2 ^ k) n = Some (esz * n, 2 ^ k)) as Harr.
      { unfold array_layout. rewrite Hmax.
        destruct (N.eqb_spec esz 0) as [->|Hesz]; simpl.
        - rewrite ?N.mul_0_l. unfold from_size_align, wrap. rewrite Hmax. rewrite N.mod_0_l by apply pow2_nz.
          destruct (N.leb_spec 0 (M - 2 ^ k)); [done|lia].
        - destruct (N.ltb_spec ((M - 2 ^ k) / esz) n) as [Hlt|_].
          + assert (n <= (M - 2 ^ k) / esz); [|lia]. apply N.div_le_lower_bound; lia.
          + unfold from_size_align, wrap. rewrite Hmax, N.mod_small by lia.
            destruct (N.leb_spec (esz * n) (M - 2 ^ k)); [done|lia]. }
      unfold slice_layout. rewrite Harr. unfold extend. simpl. fold (dst_align j k).
      rewrite round_up_bits_eq by lia. fold (data_offset j k).
      destruct (N.ltb_spec (data_offset j k + esz * n) (2 ^ bits j)); [|lia].
      unfold from_size_align. rewrite Hmax. destruct (N.leb_spec (data_offset j k + esz * n) (M - dst_align j k)); [|lia].
      unfold pad_to_align. simpl. rewrite align_pow, round_up_bits_eq by (rewrite <- align_pow; lia).
      unfold dst_size. by rewrite align_pow.
    - assert (M - dst_align j k < data_offset j k + esz * n) as Hs'.
      { destruct (N.lt_ge_cases (M - dst_align j k) (data_offset j k + esz * n)) as [|Hge]; [done|]. apply dst_size_small in Hge. lia. }
      unfold slice_layout. destruct (array_layout j esz (2 ^ k) n) as [[sz al]|] eqn:Harr; [|done].
      assert (sz = esz * n /\ al = 2 ^ k) as [-> ->].
      { unfold array_layout in Harr. destruct (negb (esz =? 0) && _) eqn:Hc; [done|]. rewrite Hmax in Hc.
        assert (esz * n <= M - 2 ^ k) as Hen.
        { destruct (N.eqb_spec esz 0) as [->|Hesz]; [lia|]. simpl in Hc. apply N.ltb_ge in Hc.
          pose proof (N.mul_div_le (M - 2 ^ k) esz Hesz). nia. }
        unfold from_size_align, wrap in Harr. rewrite N.mod_small in Harr by lia.
        destruct (_ <=? _); [|done]. by injection Harr. }
      unfold extend. simpl. fold (dst_align j k). rewrite round_up_bits_eq by lia. fold (data_offset j k).
      destruct (_ <? _); [|done]. unfold from_size_align. rewrite Hmax.
      destruct (N.leb_spec (data_offset j k + esz * n) (M - dst_align j k)); [lia|done].
  Qed.

  Lemma layout_places :
    word j <= data_offset j k /\ data_offset j k mod 2 ^ k = 0 /\
    data_offset j k + esz * n <= dst_size j esz k n /\
    dst_align j k mod word j = 0 /\ dst_align j k mod 2 ^ k = 0.
  Proof. clear Hk.
    split_and!.
    - apply next_multiple_ge, pow2_nz.
    - apply next_multiple_mod, pow2_nz.
    - apply next_multiple_ge, align_nz.
    - rewrite align_pow. apply pow2_mod. lia.
    - rewrite align_pow. apply pow2_mod. lia.
  Qed.
End layout.

Lemma element_place j k esz n i : esz mod 2 ^ k = 0 -> i < n ->
  (data_offset j k + esz * i) mod 2 ^ k = 0 /\ word j <= data_offset j k + esz * i /\
  data_offset j k + esz * i + esz <= dst_size j esz k n.
Proof.
  intros He Hi. destruct (layout_places j k esz n) as (H1&H2&H3&_). split; [|split; [lia|nia]].
  apply N.mod_divide in He as [q ->]; [|apply pow2_nz]. apply N.mod_divide in H2 as [r ->]; [|apply pow2_nz].
  apply N.mod_divide; [apply pow2_nz|]. exists (r + q * i). lia.
Qed.

(** ** Memory *)
Lemma elem_of_span x a n : x ∈ span a n <-> a <= x < a + n.
Proof.
  unfold span. rewrite elem_of_list_fmap. split.
  - intros (i&->&Hi%elem_of_seq). lia.
  - intros H. exists (N.to_nat (x - a)). split; [lia|]. apply elem_of_seq. lia.
Qed.
Lemma span_nodup a n : NoDup (span a n).
Proof.
  assert (Inj (=) (=) (λ i, a + N.of_nat i)) by (intros x y; lia).
  apply (NoDup_fmap_2 (λ i, a + N.of_nat i)), NoDup_seq.
Qed.
Lemma span_length a n : length (span a n) = N.to_nat n.
Proof. unfold span. by rewrite fmap_length, seq_length. Qed.
Lemma span_lookup a n i : (i < N.to_nat n)%nat -> span a n !! i = Some (a + N.of_nat i).
Proof. intros H. unfold span. rewrite list_lookup_fmap, lookup_seq_lt by done. done. Qed.
Lemma load_spec m a n bs : load m a n = Some bs <->
  length bs = N.to_nat n /\ forall i b, bs !! i = Some b -> b_bytes m !! (a + N.of_nat i) = Some b.
Proof.
  unfold load. rewrite mapM_Some, Forall2_lookup. split.
  - intros H. assert (length bs = N.to_nat n) as Hl.
    { rewrite <- (span_length a n). symmetry. by eapply Forall2_length, Forall2_lookup. }
    split; [done|]. intros i b Hi. specialize (H i). rewrite Hi in H. rewrite span_lookup in H.
    + by inversion H.
    + rewrite <- Hl. by eapply lookup_lt_Some.
  - intros [Hl H] i. destruct (bs !! i) as [b|] eqn:Hi.
    + rewrite span_lookup; [constructor; by apply H|]. rewrite <- Hl. by eapply lookup_lt_Some.
    + assert (span a n !! i = None) as ->; [|constructor]. apply lookup_ge_None. rewrite span_length.
      apply lookup_ge_None in Hi. lia.
Qed.
Lemma zip_map_lookup (xs : list N) (bs : list mbyte) x : NoDup xs -> length xs = length bs ->
  (list_to_map (zip xs bs) : gmap N mbyte) !! x = match list_find (λ y, y = x) xs with Some (i, _) => bs !! i | None => None end.
Proof.
  intros Hn Hl. assert (NoDup (zip xs bs).*1) as Hn'. { rewrite fst_zip; [done|lia]. }
  destruct (list_find (λ y, y = x) xs) as [[i y]|] eqn:Hf.
  - apply list_find_Some in Hf as (Hi&->&_). destruct (bs !! i) as [b|] eqn:Hb.
    + apply elem_of_list_to_map; [done|]. apply elem_of_list_lookup. exists i. apply lookup_zip_with_Some. by exists x, b.
    + apply lookup_ge_None in Hb. apply lookup_lt_Some in Hi. lia.
  - apply not_elem_of_list_to_map. rewrite fst_zip by lia. apply list_find_None in Hf. intros Hin.
    rewrite List.Forall_forall in Hf. apply (Hf x); [by apply elem_of_list_In|done].
Qed.
Lemma store_spec m a bs : (forall x, a <= x < a + N.of_nat (length bs) -> is_Some (b_bytes m !! x)) ->
  exists m', store m a bs = Some m' /\ b_allocs m' = b_allocs m /\
    (forall i b, bs !! i = Some b -> b_bytes m' !! (a + N.of_nat i) = Some b) /\
    (forall x, ~ (a <= x < a + N.of_nat (length bs)) -> b_bytes m' !! x = b_bytes m !! x) /\
    (forall x, is_Some (b_bytes m' !! x) <-> is_Some (b_bytes m !! x)).
Proof.
  intros H. unfold store. set (xs := span a (N.of_nat (length bs))).
  assert (length xs = length bs) as Hlen. { unfold xs. rewrite span_length. lia. }
  assert (forallb (λ x, bool_decide (is_Some (b_bytes m !! x))) xs = true) as ->.
  { apply forallb_forall. intros x Hx%elem_of_list_In%elem_of_span. apply bool_decide_eq_true. by apply H. }
  eexists. split; [done|]. simpl. split; [done|].
  assert (forall i b, bs !! i = Some b -> (list_to_map (zip xs bs) : gmap N mbyte) !! (a + N.of_nat i) = Some b) as Hin.
  { intros i b Hi. apply elem_of_list_to_map; [rewrite fst_zip by lia; apply span_nodup|].
    apply elem_of_list_lookup. exists i. apply lookup_zip_with_Some. exists (a + N.of_nat i), b. split_and!; [done| |done].
    apply span_lookup. apply lookup_lt_Some in Hi. lia. }
  assert (forall x, ~ (a <= x < a + N.of_nat (length bs)) -> (list_to_map (zip xs bs) : gmap N mbyte) !! x = None) as Hout.
  { intros x Hx. apply not_elem_of_list_to_map. rewrite fst_zip by lia. unfold xs. by rewrite elem_of_span. }
  assert (forall x, ~ (a <= x < a + N.of_nat (length bs)) ->
    (list_to_map (zip xs bs) ∪ b_bytes m) !! x = b_bytes m !! x) as Hout'.
  { intros x Hx. rewrite lookup_union_r; [done|]. by apply Hout. }
  split_and!; [|done|].
  - intros i b Hi. by apply lookup_union_Some_l, Hin.
  - intros x. destruct (decide (a <= x < a + N.of_nat (length bs))) as [Hx|Hx]; [|by rewrite Hout'].
    split; [intros _; by apply H|intros _].
    destruct (lookup_lt_is_Some_2 bs (N.to_nat (x - a))) as [b Hb]; [lia|]. exists b.
    replace x with (a + N.of_nat (N.to_nat (x - a))) by lia. by apply lookup_union_Some_l, Hin.
Qed.
Lemma le_bytes_length n x : length (le_bytes n x) = n.
Proof. revert x. induction n as [|n IH]; intros x; simpl; [done|]. by rewrite IH. Qed.
Lemma add_alloc_spec m base size a x :
  b_bytes (add_alloc m base size a) !! x = if decide (base <= x < base + size) then Some None else b_bytes m !! x.
Proof.
  unfold add_alloc. simpl. destruct (decide (base <= x < base + size)) as [H|H].
  - apply lookup_union_Some_l, elem_of_list_to_map.
    + rewrite <- list_fmap_compose. simpl. rewrite list_fmap_id. apply span_nodup.
    + apply elem_of_list_fmap. exists x. by rewrite elem_of_span.
  - rewrite lookup_union_r; [done|]. apply not_elem_of_list_to_map. rewrite <- list_fmap_compose. simpl.
    by rewrite list_fmap_id, elem_of_span.
Qed.
Lemma may_alloc_spec j m base size a : may_alloc j m base size a = true <->
  base <> 0 /\ base mod a = 0 /\ base + size <= 2 ^ bits j /\ b_allocs m !! base = None /\
  forall x, base <= x < base + size -> b_bytes m !! x = None.
Proof.
  unfold may_alloc. rewrite !andb_true_iff, forallb_forall, bool_decide_eq_true, N.leb_le, N.eqb_eq, negb_true_iff, N.eqb_neq.
  split.
  - intros ((((H1&H2)&H3)&H4)&H5). split_and!; try done. intros x Hx. eapply bool_decide_eq_true, H5. by apply elem_of_list_In, elem_of_span.
  - intros (H1&H2&H3&H4&H5). split_and!; try done. intros x Hx%elem_of_list_In%elem_of_span. by apply bool_decide_eq_true, H5.
Qed.
Lemma foldr_delete_lookup (l : list N) (m : gmap N mbyte) x :
  foldr delete m l !! x = if decide (x ∈ l) then None else m !! x.
Proof.
  induction l as [|y l IH]; [done|]. cbn [foldr].
  destruct (decide (y = x)) as [->|Hne].
  - rewrite lookup_delete, decide_True by (by left). done.
  - rewrite lookup_delete_ne, IH by done. destruct (decide (x ∈ l)) as [H|H].
    + by rewrite decide_True by (by right).
    + rewrite decide_False; [done|]. intros [->|?]%elem_of_cons; done.
Qed.

Section contents.
  Context (j k esz n : N) (m : bmem) (src base : N) (bs : list mbyte).
  Hypothesis Hk : k < bits j.
  Hypothesis Hsz : dst_size j esz k n <= isize_max j.
  Hypothesis Hal : may_alloc j m base (dst_size j esz k n) (dst_align j k) = true.
  Hypothesis Hsrc : src mod 2 ^ k = 0.
  Hypothesis Hbs : load m src (esz * n) = Some bs.
  Lemma slice_ok : exists m', from_slice j esz k n m src (Some base) = DBox m' base /\
    load m' base (word j) = Some (le_bytes (N.to_nat (word j)) 1) /\
    load m' (base + data_offset j k) (esz * n) = Some bs /\
    (forall x, ~ (base <= x < base + dst_size j esz k n) -> b_bytes m' !! x = b_bytes m !! x) /\
    b_allocs m' = <[base := (dst_size j esz k n, dst_align j k)]> (b_allocs m) /\
    drop_box j esz k n m' base = Some m.
  Proof.
    destruct (layout_places j k esz n) as (P1&P2&P3&P4&P5).
    unfold from_slice. rewrite layout_exact by done. apply N.leb_le in Hsz as ->. rewrite Hal.
    pose proof Hal as Hal'. apply may_alloc_spec in Hal' as (A1&A2&A3&A4&A5). rewrite A2. simpl.
    assert ((base + data_offset j k) mod 2 ^ k = 0) as Hdm.
    { pose proof (align_nz j k) as Hal0. apply N.mod_divide in A2 as [q Hq]; [|done].
      apply N.mod_divide in P5 as [r Hr]; [|apply pow2_nz]. apply N.mod_divide in P2 as [u Hu]; [|apply pow2_nz].
      apply N.mod_divide; [apply pow2_nz|]. exists (q * r + u). rewrite Hq, Hr, Hu.
      clear. generalize (2 ^ k). intros y. lia. }
    rewrite Hdm, Hsrc. simpl. clear Hdm Hsrc P2 P4 P5 A1 A2 A3 Hk Hal.
    unfold drop_box. remember (dst_size j esz k n) as sz eqn:Esz. remember (dst_align j k) as al eqn:Eal.
    remember (data_offset j k) as d eqn:Ed. remember (word j) as w eqn:Ew. remember (esz * n) as len eqn:Elen.
    clear Esz Eal Ed Ew Elen. set (m1 := add_alloc m base sz al).
    assert (forall x, base <= x < base + sz -> is_Some (b_bytes m1 !! x)) as H1.
    { intros x Hx. unfold m1. rewrite add_alloc_spec, decide_True by done. done. }
    destruct (store_spec m1 base (le_bytes (N.to_nat w) 1)) as (m2&->&Hm2a&Hm2i&Hm2o&Hm2d).
    { intros x. rewrite le_bytes_length. intros Hx. apply H1. lia. }
    rewrite le_bytes_length in Hm2o.
    assert (load m2 src (len) = Some bs) as ->.
    { apply load_spec. apply load_spec in Hbs as [Hl Hb]. split; [done|]. intros i b Hi. specialize (Hb i b Hi).
      assert (~ (base <= src + N.of_nat i < base + sz)) as Hno. { intros Hin. rewrite A5 in Hb by done. done. }
      rewrite Hm2o by lia. unfold m1. rewrite add_alloc_spec, decide_False by done. done. }
    assert (length bs = N.to_nat (len)) as Hlen by (by apply load_spec in Hbs as [? _]).
    destruct (store_spec m2 (base + d) bs) as (m3&->&Hm3a&Hm3i&Hm3o&Hm3d).
    { intros x Hx. apply Hm2d, H1. rewrite Hlen in Hx. lia. }
    rewrite Hlen in Hm3o. exists m3. split; [done|].
    assert (forall x, ~ (base <= x < base + sz) -> b_bytes m3 !! x = b_bytes m !! x) as Hout.
    { intros x Hx. rewrite Hm3o, Hm2o by lia. unfold m1. rewrite add_alloc_spec, decide_False by done. done. }
    assert (b_allocs m3 = <[base:=(sz, al)]> (b_allocs m)) as Hall. { rewrite Hm3a, Hm2a. done. }
    split_and!; [| |done|done|].
    - apply load_spec. split; [by rewrite le_bytes_length|]. intros i b Hi. rewrite Hm3o; [by apply Hm2i|].
      apply lookup_lt_Some in Hi. rewrite le_bytes_length in Hi. lia.
    - apply load_spec. split; [done|]. intros i b Hi. by apply Hm3i.
    - unfold dealloc. rewrite Hall, lookup_insert, bool_decide_eq_true_2 by done.
      destruct m as [mb ma]. simpl in *. f_equal. f_equal.
      + apply map_eq. intros x. rewrite foldr_delete_lookup. destruct (decide (x ∈ span base sz)) as [Hx|Hx]; rewrite elem_of_span in Hx.
        * by rewrite A5.
        * by apply Hout.
      + by apply delete_insert.
  Qed.
  Lemma slice_element i : i < n -> exists m', from_slice j esz k n m src (Some base) = DBox m' base /\
    load m' (base + data_offset j k + esz * i) esz = load m (src + esz * i) esz.
  Proof.
    intros Hi. destruct slice_ok as (m'&Hf&_&Hd&_). exists m'. split; [done|].
    assert (exists es, load m (src + esz * i) esz = Some es /\ load m' (base + data_offset j k + esz * i) esz = Some es) as (es&->&->); [|done].
    apply load_spec in Hbs as [Hl Hb]. apply load_spec in Hd as [_ Hd].
    exists (take (N.to_nat esz) (drop (N.to_nat (esz * i)) bs)). split; apply load_spec; (split; [rewrite take_length, drop_length; nia|]);
      intros x b Hx; apply lookup_take_Some in Hx as [Hx Hlt]; rewrite lookup_drop in Hx.
    - replace (src + esz * i + N.of_nat x) with (src + N.of_nat (N.to_nat (esz * i) + x)) by lia. by apply Hb.
    - replace (base + data_offset j k + esz * i + N.of_nat x) with (base + data_offset j k + N.of_nat (N.to_nat (esz * i) + x)) by lia. by apply Hd.
  Qed.
End contents.
Lemma slice_null j k esz n m src : k < bits j -> dst_size j esz k n <= isize_max j ->
  from_slice j esz k n m src None = DUB.
Proof. intros Hk Hs. unfold from_slice. rewrite layout_exact by done. by apply N.leb_le in Hs as ->. Qed.
Lemma slice_panics j k esz n m src ans : k < bits j ->
  (from_slice j esz k n m src ans = DPanic <-> isize_max j < dst_size j esz k n).
Proof.
  intros Hk. unfold from_slice. rewrite layout_exact by done. destruct (N.leb_spec (dst_size j esz k n) (isize_max j)) as [H|H].
  - split; [|lia]. repeat case_match; done.
  - done.
Qed.
Lemma layout_least j esz k n size a : k < bits j -> slice_layout j esz k n = Some (size, a) ->
  a = N.max (word j) (2 ^ k) /\ size <= isize_max j /\
  exists off, ((2 ^ k | off) /\ word j <= off /\ forall x, (2 ^ k | x) -> word j <= x -> off <= x) /\
    ((a | size) /\ off + esz * n <= size /\ forall x, (a | x) -> off + esz * n <= x -> size <= x).
Proof.
  intros Hk. rewrite layout_exact by done. destruct (N.leb_spec (dst_size j esz k n) (isize_max j)) as [Hs|]; [|done].
  intros [= <- <-]. split_and!; [done|done|]. pose proof (pow2_nz k) as H0. pose proof (align_nz j k) as HA.
  exists (data_offset j k). split_and!.
  - apply N.mod_divide, next_multiple_mod; done.
  - by apply next_multiple_ge.
  - intros x Hx Hle. apply next_multiple_least; [done| |done]. by apply N.mod_divide.
  - apply N.mod_divide, next_multiple_mod; done.
  - by apply next_multiple_ge.
  - intros x Hx Hle. apply next_multiple_least; [done| |done]. by apply N.mod_divide.
Qed.
Lemma layout_panics j esz k n : k < bits j -> (slice_layout j esz k n = None <-> isize_max j < dst_size j esz k n).
Proof.
  intros Hk. rewrite layout_exact by done. destruct (N.leb_spec (dst_size j esz k n) (isize_max j)); split; (done || lia).
Qed.
Lemma next_multiple_1 x : next_multiple x 1 = x.
Proof. unfold next_multiple. rewrite N.div_1_r. lia. Qed.
Lemma str_ok j n m src base bs :
  dst_size j 1 0 n <= isize_max j -> may_alloc j m base (dst_size j 1 0 n) (word j) = true ->
  load m src n = Some bs ->
  exists m', from_str j n m src (Some base) = DBox m' base /\
    load m' base (word j) = Some (le_bytes (N.to_nat (word j)) 1) /\ load m' (base + word j) n = Some bs.
Proof.
  intros Hs Ha Hl.
  assert (dst_align j 0 = word j) as Hd. { unfold dst_align, word. pose proof (pow2_nz j). change (2 ^ 0) with 1. lia. }
  destruct (slice_ok j 0 1 n m src base bs) as (m'&Hf&Hc&Hb&_); try done.
  - pose proof (bits_pos j). lia.
  - by rewrite Hd.
  - by rewrite N.mod_1_r.
  - by rewrite N.mul_1_l.
  - exists m'. split_and!; [done|done|]. unfold data_offset in Hb. change (2 ^ 0) with 1 in Hb.
    by rewrite next_multiple_1, N.mul_1_l in Hb.
Qed.

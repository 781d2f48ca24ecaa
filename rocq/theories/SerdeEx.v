(** Two small formats, one of each kind, and a type environment with strings, for the
    examples of C45 and C46.  The formats are models of nothing in /repo. *)
From stdpp Require Import gmap list numbers.
From Verif Require Import Base ArcModel ArcSpec ArcEx InternModel InternEx SerdeModel SerdeSpec.
Local Open Scope N_scope.

(** ** Like JSON: numbers, quoted strings with escapes, [..] for sequences and for bytes. *)
Fixpoint esc (s : list N) : list N :=
  match s with
  | [] => []
  | c :: s' => if (c =? 34) || (c =? 92) then 92 :: c :: esc s' else c :: esc s'
  end.
Fixpoint unesc (w : list N) : option (list N) :=
  match w with
  | [] => None
  | c :: w' =>
      if c =? 34 then Some []
      else if c =? 92 then match w' with d :: w'' => (d ::.) <$> unesc w'' | [] => None end
      else (c ::.) <$> unesc w'
  end.
Definition digits (n : N) : list N := [48 + n / 100; 48 + n / 10 mod 10; 48 + n mod 10].
Fixpoint json_enc (d : dval) : list N :=
  match d with
  | DU8 n => digits n
  | DStr s => 34 :: esc s ++ [34]
  | DBytes s => 91 :: concat ((λ n, digits n ++ [44]) <$> s) ++ [93]
  | DSeq l => 91 :: (fix go l := match l with [] => [] | x :: l' => json_enc x ++ [44] ++ go l' end) l ++ [93]
  | DOther n l => 123 :: N.of_nat n :: (fix go l := match l with [] => [] | x :: l' => json_enc x ++ [44] ++ go l' end) l ++ [125]
  end.
(** As in serde_json: a string is handed over borrowed when it has no escapes. *)
Definition json_str (w : list N) : option visit :=
  match w with
  | 34 :: w' => match unesc w' with
                | Some s => Some (if forallb (λ c, negb (c =? 92)) w' then VBorrowedStr s else VStr s)
                | None => None
                end
  | 91 :: _ => Some (VSeq [])
  | _ => None
  end.
Definition json_bytes (w : list N) : option visit :=
  match w with
  | 34 :: w' => VBytes <$> unesc w'
  | 91 :: _ => Some (VSeq [])
  | _ => None
  end.
Definition json : format (list N) := Format (λ d, Some (json_enc d)) json_str json_bytes.

Lemma unesc_esc s : unesc (esc s ++ [34]) = Some s.
Proof.
  induction s as [|c s IH]; [done|]. simpl. destruct (c =? 34) eqn:H1; simpl.
  - by rewrite IH.
  - destruct (c =? 92) eqn:H2; simpl; [by rewrite IH|]. by rewrite H1, H2, IH.
Qed.
Lemma json_keeps_strings : keeps_strings json.
Proof.
  intros s w [= <-]. simpl. rewrite unesc_esc. eexists. split; [done|]. by destruct (forallb _ _).
Qed.
Lemma json_tells : tells_seqs_from_bytes json.
Proof. intros l w e [= <-]. simpl. intros [= <-]. by eexists. Qed.

(** ** Like bincode: a length in eight bytes, then the contents; numbers are one byte. *)
Fixpoint le (k : nat) (n : N) : list N :=
  match k with O => [] | S k' => n mod 256 :: le k' (n / 256) end.
Fixpoint of_le (l : list N) : N := match l with [] => 0 | b :: l' => b + 256 * of_le l' end.
Fixpoint bin_enc (d : dval) : list N :=
  match d with
  | DU8 n => [n]
  | DStr s | DBytes s => le 8 (N.of_nat (length s)) ++ s
  | DSeq l => le 8 (N.of_nat (length l)) ++ (fix go l := match l with [] => [] | x :: l' => bin_enc x ++ go l' end) l
  | DOther n l => (fix go l := match l with [] => [] | x :: l' => bin_enc x ++ go l' end) l
  end.
Definition small (d : dval) : bool :=
  match d with
  | DStr s | DBytes s => N.of_nat (length s) <? 2 ^ 64
  | DSeq l | DOther _ l => N.of_nat (length l) <? 2 ^ 64
  | DU8 _ => true
  end.
Definition bin_read (w : list N) : option (list N) :=
  let n := N.to_nat (of_le (take 8 w)) in
  if (n <=? length (drop 8 w))%nat then Some (take n (drop 8 w)) else None.
Definition bin : format (list N) :=
  Format (λ d, if small d then Some (bin_enc d) else None)
         (λ w, VStr <$> bin_read w) (λ w, (λ s, VByteBuf (s ++ [0]) (length s)) <$> bin_read w).

Lemma le_len k n : length (le k n) = k.
Proof. revert n. induction k; intros n; simpl; [done|]. by rewrite IHk. Qed.
Lemma of_le_le k n : n < 256 ^ N.of_nat k -> of_le (le k n) = n.
Proof.
  revert n. induction k as [|k IH]; intros n Hn; [assert (n < 1) by exact Hn; simpl; lia|].
  rewrite Nat2N.inj_succ, N.pow_succ_r' in Hn. cbn [le of_le]. rewrite IH by (apply N.div_lt_upper_bound; lia).
  pose proof (N.div_mod' n 256). lia.
Qed.
Lemma bin_read_enc s : N.of_nat (length s) < 2 ^ 64 -> bin_read (le 8 (N.of_nat (length s)) ++ s) = Some s.
Proof.
  intros Hs. unfold bin_read.
  rewrite take_app_alt by (by rewrite le_len). rewrite drop_app_alt by (by rewrite le_len).
  rewrite of_le_le by exact Hs. rewrite Nat2N.id, Nat.leb_refl. by rewrite firstn_all.
Qed.
Lemma bin_keeps_strings : keeps_strings bin.
Proof.
  intros s w. cbn [bin f_enc f_str small bin_enc]. destruct (_ <? _) eqn:Hs; [|done].
  intros Hw. assert (w = le 8 (N.of_nat (length s)) ++ s) as -> by congruence. clear Hw. apply N.ltb_lt in Hs.
  rewrite (bin_read_enc s Hs). by eexists.
Qed.
Lemma bin_alike : writes_seqs_like_bytes bin.
Proof.
  split.
  - intros s. cbn [bin f_enc small bin_enc]. rewrite fmap_length. destruct (_ <? _); [|done]. f_equal. f_equal.
    induction s as [|b s IH]; [done|]. csimpl. f_equal. apply IH.
  - intros s w. cbn [bin f_enc f_bytes small bin_enc]. destruct (_ <? _) eqn:Hs; [|done].
    intros Hw. assert (w = le 8 (N.of_nat (length s)) ++ s) as -> by congruence. clear Hw. apply N.ltb_lt in Hs.
    rewrite (bin_read_enc s Hs). eexists. split; [done|]. simpl. by rewrite take_app.
Qed.

(** ** Slices and strings: a type number and contents, compared by contents. *)
Record slc := Slc { s_ty : nat; s_l : list N }.
Global Instance slc_eq_dec : EqDecision slc.
Proof. solve_decision. Defined.
Definition slcE : tyenv slc :=
  TyEnv slc (λ u v, bool_decide (u = v)) (λ u, length (s_l u)) s_ty (λ _, []) (λ _ _, true) 2 256.
Lemma slcE_lawful : lawful slcE.
Proof.
  constructor; simpl; intros *; rewrite ?bool_decide_eq_true; try congruence.
Qed.

(** ** A tree in memory, like serde_json::Value; everything keeps its kind. *)
Definition tree : format dval :=
  Format Some
    (λ d, match d with DStr s => Some (VString (s ++ [0]) (length s)) | DSeq l => Some (VSeq l) | _ => None end)
    (λ d, match d with DBytes s => Some (VBytes s) | DSeq l => Some (VSeq l) | DStr s => Some (VStr s) | _ => None end).
Lemma tree_tells : tells_seqs_from_bytes tree.
Proof. intros l w e. simpl. intros [= <-] [= <-]. by eexists. Qed.

(** Impls for the types of ArcEx and InternEx; the last bit of the number, which Eq ignores,
    is not written. *)
Definition node_ser (x : node) : dval :=
  DOther (n_ty x) [DU8 (N.of_nat (n_val x / 2 * 2)); DSeq ((λ p, DOther (p_addr p) [DU8 (N.of_nat (p_ser p))]) <$> n_kids x)].
Definition kid_de (d : dval) : ptr := match d with DOther a [DU8 s] => Ptr a (N.to_nat s) | _ => Ptr 0 0 end.
Definition node_de (d : dval) : option node :=
  match d with DOther ty [DU8 n; DSeq l] => Some (Node ty (N.to_nat n) (kid_de <$> l)) | _ => None end.
Lemma node_round_trips sh M : round_trips tree (λ u v, te_eq (nodes sh M) u v = true) node_ser node_de.
Proof.
  intros [ty n l] w Hw. simplify_eq/=. eexists. split; [done|]. unfold node_eqb. cbn [n_ty n_val n_kids].
  rewrite Nat2N.id, Nat.div_mul, !Nat.eqb_refl by done. cbn [andb].
  replace (kid_de <$> _) with l; [by apply kids_eqb_refl|].
  rewrite <- list_fmap_compose. symmetry. transitivity (id <$> l); [|apply list_fmap_id].
  apply list_fmap_ext. intros _ [a s] _. simpl. by rewrite Nat2N.id.
Qed.
Definition ival_ser (v : ival) : dval := DOther (iv_ty v) [DU8 (N.of_nat (iv_n v / 2 * 2)); DU8 (N.of_nat (iv_len v))].
Definition ival_de (d : dval) : option ival :=
  match d with DOther ty [DU8 n; DU8 l] => Some (IV ty (N.to_nat n) (N.to_nat l)) | _ => None end.
Lemma ival_round_trips : round_trips tree (λ u v, ie_ty toyE u = ie_ty toyE v /\ ie_eq toyE u v = true) ival_ser ival_de.
Proof.
  intros [ty n l] w Hw. injection Hw as <-. exists (IV ty (n / 2 * 2) l).
  split; [cbn [ival_de ival_ser]; by rewrite !Nat2N.id|]. split; [done|].
  unfold toyE, toys. cbn [ie_eq iv_ty iv_n iv_len]. unfold eff. cbn [iv_ty iv_n iv_len]. rewrite !Nat.eqb_refl.
  destruct (some_zst ty l); [done|]. by rewrite Nat.div_mul, Nat.eqb_refl by done.
Qed.

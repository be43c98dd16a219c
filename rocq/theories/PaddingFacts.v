(** Facts about the padding layer: arithmetic of one axis, then lists of axes. *)
From Verif Require Import OpFacts UtilsTheorems LayerSpec.
Local Open Scope string_scope.

(** ** One axis *)

(** Built-in padding and extra padding as computed by the code (in Z). *)
Definition zb_same (n k s : Z) : Z := Z.max 0 (k - s + (- n) mod s).
Definition ze0 (n b k s : Z) : Z := (- (n + b - k)) mod s.
Definition zextra (n b k s : Z) : Z := (ze0 n b k s + ((ze0 n b k s + b) mod 2) * s)%Z.

Lemma ceil_div n s : 0 < s -> Z.of_nat ((n + s - 1) / s * s) = (Z.of_nat n + (- Z.of_nat n) mod Z.of_nat s)%Z.
Proof.
  intros H.
  assert (D := Nat.div_mod (n + s - 1) s ltac:(lia)).
  assert (B := Nat.mod_upper_bound (n + s - 1) s ltac:(lia)).
  set (q := (n + s - 1) / s) in *. set (r := (n + s - 1) mod s) in *.
  assert (E : ((- Z.of_nat n) mod Z.of_nat s = Z.of_nat s - 1 - Z.of_nat r)%Z).
  { symmetry. apply (Z.mod_unique _ _ (- Z.of_nat q)); nia. }
  rewrite E. nia.
Qed.

Lemma same_total_Z n k s : 0 < s -> Z.of_nat (same_total n k s) = zb_same (Z.of_nat n) (Z.of_nat k) (Z.of_nat s).
Proof.
  intros H. unfold same_total, zb_same. pose proof (ceil_div n s H) as C. lia.
Qed.

Lemma ze0_range n b k s : (0 < s)%Z -> (0 <= ze0 n b k s < s)%Z.
Proof. intros H. apply Z.mod_pos_bound. exact H. Qed.

Lemma ze0_eq n b k s : (0 < s)%Z -> exists q, (n + b + ze0 n b k s = k + q * s)%Z.
Proof.
  intros H. unfold ze0. pose proof (Z.div_mod (- (n + b - k)) s ltac:(lia)) as D.
  exists (- ((- (n + b - k)) / s))%Z. lia.
Qed.

Lemma zextra_cases n b k s : (0 < s)%Z ->
  ((ze0 n b k s + b) mod 2 = 0 /\ zextra n b k s = ze0 n b k s)%Z \/
  ((ze0 n b k s + b) mod 2 = 1 /\ zextra n b k s = ze0 n b k s + s)%Z.
Proof.
  intros H. unfold zextra. pose proof (Z.mod_pos_bound (ze0 n b k s + b) 2 ltac:(lia)) as B.
  destruct (Z.eq_dec ((ze0 n b k s + b) mod 2) 0) as [E|E].
  - left. rewrite E. lia.
  - right. assert (E1 : ((ze0 n b k s + b) mod 2 = 1)%Z) by lia. rewrite E1. lia.
Qed.

Lemma zextra_nonneg n b k s : (0 < s)%Z -> (0 <= zextra n b k s)%Z.
Proof. intros H. pose proof (ze0_range n b k s H). destruct (zextra_cases n b k s H) as [[_ E]|[_ E]]; lia. Qed.

Lemma mod2_even z : (z mod 2 = 0)%Z <-> exists q, (z = 2 * q)%Z.
Proof.
  split.
  - intros E. exists (z / 2)%Z. pose proof (Z.div_mod z 2). lia.
  - intros [q ->]. rewrite Z.mul_comm. apply Z.mod_mul. lia.
Qed.

Definition nextra (n b k s : nat) : nat := Z.to_nat (zextra (Z.of_nat n) (Z.of_nat b) (Z.of_nat k) (Z.of_nat s)).

Lemma nextra_Z n b k s : 0 < s -> Z.of_nat (nextra n b k s) = zextra (Z.of_nat n) (Z.of_nat b) (Z.of_nat k) (Z.of_nat s).
Proof. intros H. unfold nextra. pose proof (zextra_nonneg (Z.of_nat n) (Z.of_nat b) (Z.of_nat k) (Z.of_nat s)). lia. Qed.

Lemma nextra_good n b k s : 0 < s ->
  Nat.Even (b + nextra n b k s) -> admissible n b k s (nextra n b k s).
Proof.
  intros H E. split; [|exact E]. pose proof (nextra_Z n b k s H) as N.
  destruct (ze0_eq (Z.of_nat n) (Z.of_nat b) (Z.of_nat k) (Z.of_nat s) ltac:(lia)) as [q Q].
  destruct (zextra_cases (Z.of_nat n) (Z.of_nat b) (Z.of_nat k) (Z.of_nat s) ltac:(lia)) as [[_ X]|[_ X]].
  - exists q. lia.
  - exists (q + 1)%Z. lia.
Qed.

(** Every admissible amount differs from [e0] by a multiple of the stride. *)
Lemma admissible_e0 n b k s e : 0 < s -> admissible n b k s e ->
  exists q : Z, (0 <= q /\ Z.of_nat e = ze0 (Z.of_nat n) (Z.of_nat b) (Z.of_nat k) (Z.of_nat s) + q * Z.of_nat s)%Z.
Proof.
  intros H [[q Q] _].
  destruct (ze0_eq (Z.of_nat n) (Z.of_nat b) (Z.of_nat k) (Z.of_nat s) ltac:(lia)) as [q0 Q0].
  pose proof (ze0_range (Z.of_nat n) (Z.of_nat b) (Z.of_nat k) (Z.of_nat s) ltac:(lia)) as R.
  exists (q - q0)%Z. split; nia.
Qed.

Lemma nextra_least n b k s e : 0 < s -> admissible n b k s e -> nextra n b k s <= e.
Proof.
  intros H A. destruct (admissible_e0 n b k s e H A) as [q [Q E]]. destruct A as [_ [m M]].
  pose proof (nextra_Z n b k s H) as N.
  destruct (zextra_cases (Z.of_nat n) (Z.of_nat b) (Z.of_nat k) (Z.of_nat s) ltac:(lia)) as [[P X]|[P X]].
  - nia.
  - assert (q <> 0%Z).
    { intros ->. assert (T : ((ze0 (Z.of_nat n) (Z.of_nat b) (Z.of_nat k) (Z.of_nat s) + Z.of_nat b) mod 2 = 0)%Z).
      { apply mod2_even. exists (Z.of_nat m). lia. }
      lia. }
    nia.
Qed.

Lemma nextra_decides n b k s e : 0 < s -> admissible n b k s e -> Nat.Even (b + nextra n b k s).
Proof.
  intros H A. destruct (admissible_e0 n b k s e H A) as [q [Q E]]. destruct A as [_ [m M]].
  pose proof (nextra_Z n b k s H) as N.
  assert (T : exists z, (Z.of_nat (b + nextra n b k s) = 2 * z)%Z).
  { destruct (zextra_cases (Z.of_nat n) (Z.of_nat b) (Z.of_nat k) (Z.of_nat s) ltac:(lia)) as [[P X]|[P X]].
    - apply mod2_even in P as [z Z]. exists z. lia.
    - set (e0 := ze0 _ _ _ _) in *.
      assert (P2 : exists z, (e0 + Z.of_nat b = 2 * z + 1)%Z).
      { exists ((e0 + Z.of_nat b) / 2)%Z. pose proof (Z.div_mod (e0 + Z.of_nat b) 2). lia. }
      destruct P2 as [z P2].
      (* q * s is odd, so s is odd *)
      destruct (Z.Even_or_Odd (Z.of_nat s)) as [[y Y]|[y Y]].
      + exfalso. assert (2 * (Z.of_nat m - z - q * y) = 1)%Z by nia. lia.
      + exists (z + y + 1)%Z. lia. }
  destruct T as [z T]. exists (Z.to_nat z). lia.
Qed.

Lemma nextra_zero_even n b k s : 0 < s -> nextra n b k s = 0 -> Nat.Even (b + nextra n b k s).
Proof.
  intros H E. pose proof (nextra_Z n b k s H) as N. pose proof (ze0_range (Z.of_nat n) (Z.of_nat b) (Z.of_nat k) (Z.of_nat s) ltac:(lia)) as R.
  destruct (zextra_cases (Z.of_nat n) (Z.of_nat b) (Z.of_nat k) (Z.of_nat s) ltac:(lia)) as [[P X]|[P X]]; [|lia].
  apply mod2_even in P as [z Z]. exists (Z.to_nat z). lia.
Qed.

(** ** The backend's padding of the padded axis is what was assumed. *)
Lemma same_total_padded n k s e : 0 < s -> 0 < k -> admissible n (same_total n k s) k s e ->
  same_total (n + e) k s = same_total n k s.
Proof.
  intros H K A. destruct A as [[q Q] _].
  apply Nat2Z.inj. rewrite !same_total_Z by lia.
  pose proof (same_total_Z n k s H) as B. unfold zb_same in *.
  set (r := ((- Z.of_nat n) mod Z.of_nat s)%Z) in *.
  assert (R : (0 <= r < Z.of_nat s)%Z) by (apply Z.mod_pos_bound; lia).
  assert (RE : exists m, (- Z.of_nat n = Z.of_nat s * m + r)%Z).
  { exists ((- Z.of_nat n) / Z.of_nat s)%Z. apply Z.div_mod. lia. }
  destruct RE as [m RE].
  destruct (Z.le_gt_cases (Z.of_nat k - Z.of_nat s + r) 0) as [Le|Gt].
  - (* no built-in padding: -(n+e) = -k modulo s *)
    rewrite Z.max_l in B by exact Le.
    assert (X : ((- Z.of_nat (n + e)) mod Z.of_nat s = if (Z.of_nat k =? Z.of_nat s)%Z then 0 else Z.of_nat s - Z.of_nat k)%Z).
    { destruct (Z.eqb_spec (Z.of_nat k) (Z.of_nat s)).
      - symmetry. apply (Z.mod_unique _ _ (- q - 1)); nia.
      - symmetry. apply (Z.mod_unique _ _ (- q - 1)); nia. }
    rewrite X. destruct (Z.eqb_spec (Z.of_nat k) (Z.of_nat s)); lia.
  - f_equal. f_equal. rewrite Z.max_r in B by lia.
    (* e is a multiple of s *)
    assert (X : exists y, (Z.of_nat e = y * Z.of_nat s)%Z).
    { exists (q + 1 + m)%Z. nia. }
    destruct X as [y X]. symmetry. apply (Z.mod_unique _ _ (m - y)); nia.
Qed.

Lemma split_even b e : Nat.Even (b + e) -> (e - e / 2) + b / 2 = e / 2 + (b - b / 2).
Proof.
  intros [m M]. pose proof (Nat.div_mod e 2). pose proof (Nat.div_mod b 2).
  pose proof (Nat.mod_upper_bound e 2). pose proof (Nat.mod_upper_bound b 2). lia.
Qed.

(** ** All axes *)

Definition axis := (nat * nat * nat)%type.
Definition ax_n (q : axis) : nat := fst (fst q).
Definition ax_k (q : axis) : nat := snd (fst q).
Definition ax_s (q : axis) : nat := snd q.
Definition axes_of (n k s : list nat) : list axis := combine (combine n k) s.

Lemma axes_of_n n k s d : List.length n = d -> List.length k = d -> List.length s = d -> map ax_n (axes_of n k s) = n.
Proof.
  unfold axes_of. revert n k s. induction d; intros [|x n] [|y k] [|z s]; cbn; try discriminate; [reflexivity|].
  intros [=] [=] [=]. f_equal. apply IHd; assumption.
Qed.
Lemma axes_of_k n k s d : List.length n = d -> List.length k = d -> List.length s = d -> map ax_k (axes_of n k s) = k.
Proof.
  unfold axes_of. revert n k s. induction d; intros [|x n] [|y k] [|z s]; cbn; try discriminate; [reflexivity|].
  intros [=] [=] [=]. f_equal. apply IHd; assumption.
Qed.
Lemma axes_of_s n k s d : List.length n = d -> List.length k = d -> List.length s = d -> map ax_s (axes_of n k s) = s.
Proof.
  unfold axes_of. revert n k s. induction d; intros [|x n] [|y k] [|z s]; cbn; try discriminate; [reflexivity|].
  intros [=] [=] [=]. f_equal. apply IHd; assumption.
Qed.

Lemma zipZ_map {B} f (g h : B -> Z) l : zipZ f (map g l) (map h l) = Ok (map (fun x => f (g x) (h x)) l).
Proof.
  unfold zipZ. rewrite !map_length, Nat.eqb_refl. f_equal.
  induction l; cbn; [reflexivity|]. f_equal. exact IHl.
Qed.

Lemma zipZ_map2 {B} f (g h : B -> Z) l a b : a = map g l -> b = map h l ->
  zipZ f a b = Ok (map (fun x => f (g x) (h x)) l).
Proof. intros -> ->. apply zipZ_map. Qed.

Definition is_same (opt : string) : bool := mem_str opt ["SAME"; "SAME_EQUIV"].

(** Built-in padding assumed by the layer. *)
Definition assumed (same transp : bool) (q : axis) : nat :=
  if same then same_total (ax_n q) (ax_k q) (ax_s q) else if transp then ax_s q - ax_k q else 0.
Definition extra_of (same transp : bool) (q : axis) : nat :=
  nextra (ax_n q) (assumed same transp q) (ax_k q) (ax_s q).

Definition zs (f : axis -> nat) (l : list axis) : list Z := map (fun q => Z.of_nat (f q)) l.

Lemma zs_ext f g l : (forall q, In q l -> f q = g q) -> zs f l = zs g l.
Proof. intros H. apply map_ext_in. intros q Q. rewrite H by exact Q. reflexivity. Qed.

Lemma compute_equivariant_padding_eq L l :
  pl_kernel L = zs ax_k l -> pl_strides L = zs ax_s l -> (forall q, In q l -> 0 < ax_s q) ->
  compute_equivariant_padding L (zs ax_n l) =
  Ok (zs (extra_of (is_same (pl_option L)) (pl_transpose L)) l,
      zs (fun q => extra_of (is_same (pl_option L)) (pl_transpose L) q
                   + assumed (is_same (pl_option L)) (pl_transpose L) q) l).
Proof.
  intros HK HS P. unfold compute_equivariant_padding.
  set (sm := is_same (pl_option L)). set (tr := pl_transpose L).
  assert (B : compute_built_in_padding L (zs ax_n l) = Ok (zs (assumed sm tr) l)).
  { unfold compute_built_in_padding. fold (is_same (pl_option L)). fold sm. fold tr. rewrite HK, HS.
    unfold assumed. destruct sm; [|destruct tr].
    - unfold zs. rewrite zipZ_map. cbn [bind]. rewrite map_map, zipZ_map. cbn [bind].
      rewrite zipZ_map. cbn [bind]. unfold relu. rewrite map_map. f_equal. apply map_ext_in. intros q Q.
      rewrite same_total_Z by (apply P; exact Q). reflexivity.
    - unfold zs. rewrite zipZ_map. cbn [bind]. unfold relu. rewrite map_map. f_equal. apply map_ext. intros q. lia.
    - unfold zs. rewrite map_map. reflexivity. }
  rewrite B. cbn [bind]. unfold compute_extra_padding. rewrite HK, HS. unfold zs.
  rewrite zipZ_map. cbn [bind]. rewrite zipZ_map. cbn [bind]. rewrite map_map, zipZ_map. cbn [bind].
  rewrite zipZ_map. cbn [bind]. rewrite map_map, zipZ_map. cbn [bind]. rewrite zipZ_map. cbn [bind].
  rewrite zipZ_map. cbn [bind].
  assert (E : forall q, In q l ->
     (((- (Z.of_nat (ax_n q) + Z.of_nat (assumed sm tr q) - Z.of_nat (ax_k q))) mod Z.of_nat (ax_s q)
      + ((- (Z.of_nat (ax_n q) + Z.of_nat (assumed sm tr q) - Z.of_nat (ax_k q))) mod Z.of_nat (ax_s q)
         + Z.of_nat (assumed sm tr q)) mod 2 * Z.of_nat (ax_s q))
      = Z.of_nat (extra_of sm tr q))%Z).
  { intros q Q. unfold extra_of. rewrite nextra_Z by (apply P; exact Q). reflexivity. }
  f_equal. f_equal.
  - apply map_ext_in. intros q Q. rewrite <- E by exact Q. reflexivity.
  - apply map_ext_in. intros q Q. rewrite Nat2Z.inj_add, <- E by exact Q. reflexivity.
Qed.

Lemma cast_sizes_known l : cast_sizes (map Some l) = Ok (map Z.of_nat l).
Proof. unfold cast_sizes. induction l; cbn; [reflexivity|]. rewrite IHl. reflexivity. Qed.

Lemma static_layout_known fmt b n c : static_layout fmt (Some b) n (Some c) = map Some (layout fmt b n c).
Proof. unfold static_layout, layout. destruct (fmt =? "channels_last"); cbn; [rewrite map_app|]; reflexivity. Qed.

Definition is_plain (opt : string) : bool := mem_str opt ["SAME"; "VALID"].

(** What [build] does. *)
Lemma padding_build_eq L l b c n :
  pl_kernel L = zs ax_k l -> pl_strides L = zs ax_s l -> (forall q, In q l -> 0 < ax_s q) ->
  map ax_n l = n -> pl_dims L = List.length n ->
  let ex := extra_of (is_same (pl_option L)) (pl_transpose L) in
  let bi := assumed (is_same (pl_option L)) (pl_transpose L) in
  padding_build L (static_layout (pl_format L) b n c) =
  if is_plain (pl_option L) && pl_allow L then Ok (set_needs L false (pl_pads L))
  else if forallb (fun q => ex q =? 0)%nat l then Ok (set_needs L false (pl_pads L))
  else if is_plain (pl_option L) then Err (padding_error L)
  else if forallb (fun q => Nat.even (bi q + ex q)) l
       then Ok (set_needs L true (Some (split_padding L (zs ex l))))
       else Err (padding_error L).
Proof.
  intros HK HS P N D ex bi. unfold padding_build. fold (is_plain (pl_option L)).
  destruct (is_plain (pl_option L) && pl_allow L); [reflexivity|].
  assert (SP : (if pl_format L =? "channels_last" then firstn (pl_dims L) (skipn 1 (static_layout (pl_format L) b n c))
                else skipn 2 (static_layout (pl_format L) b n c)) = map Some n).
  { unfold static_layout. destruct (pl_format L =? "channels_last").
    - cbn [skipn]. apply firstn_app_exact. rewrite map_length. exact D.
    - reflexivity. }
  match goal with |- context [cast_sizes ?z] => change z with
    (if pl_format L =? "channels_last" then firstn (pl_dims L) (skipn 1 (static_layout (pl_format L) b n c))
                else skipn 2 (static_layout (pl_format L) b n c)) end.
  rewrite SP, cast_sizes_known. cbn [bind].
  replace (map Z.of_nat n) with (zs ax_n l) by (rewrite <- N; unfold zs; rewrite map_map; reflexivity).
  rewrite (compute_equivariant_padding_eq L l HK HS P). cbn [bind]. fold ex bi.
  replace (negb (existsb (fun e : Z => negb (e =? 0)%Z) (zs ex l))) with (forallb (fun q => ex q =? 0)%nat l).
  2:{ clear. unfold zs. induction l as [|q l IH]; cbn; [reflexivity|]. rewrite negb_orb, negb_involutive. rewrite <- IH. f_equal.
      destruct (Nat.eqb_spec (ex q) 0); destruct (Z.eqb_spec (Z.of_nat (ex q)) 0); lia || reflexivity. }
  destruct (forallb _ l); [reflexivity|].
  destruct (is_plain (pl_option L)); [reflexivity|].
  replace (existsb (fun t : Z => negb (t mod 2 =? 0)%Z) (zs (fun q => ex q + bi q) l))
    with (negb (forallb (fun q => Nat.even (bi q + ex q)) l)).
  - destruct (forallb _ l); reflexivity.
  - clear. unfold zs. induction l as [|q l IH]; cbn; [reflexivity|]. rewrite negb_andb, IH. f_equal. f_equal.
    destruct (Z.eqb_spec (Z.of_nat (ex q + bi q) mod 2) 0) as [E|E].
    + apply mod2_even in E as [z E]. apply Nat.even_spec. exists (Z.to_nat z). lia.
    + destruct (Nat.even (bi q + ex q)) eqn:X; [|reflexivity]. exfalso. apply E. apply Nat.even_spec in X as [m X].
      apply mod2_even. exists (Z.of_nat m). lia.
Qed.

(** ** Padding a tensor *)

Lemma combine_app {B C} (a a' : list B) (b b' : list C) : List.length a = List.length b ->
  combine (a ++ a') (b ++ b') = (combine a b ++ combine a' b')%list.
Proof.
  revert b. induction a as [|x a IH]; intros [|y b] L; cbn in *; try discriminate; [reflexivity|].
  f_equal. apply IH. lia.
Qed.

Definition pads_in (fmt : string) (pads : list (nat * nat)) : list (nat * nat) :=
  (if String.eqb fmt "channels_last" then (0, 0) :: pads ++ [(0, 0)] else (0, 0) :: (0, 0) :: pads)%list.

Definition padded (before n after : list nat) : list nat := vzip Nat.add (vzip Nat.add before n) after.

Lemma length_vzip f a b : List.length a = List.length b -> List.length (vzip f a b) = List.length a.
Proof. intros H. unfold vzip. rewrite map_length, combine_length. lia. Qed.

Lemma nth_vzip f a b m : m < List.length a -> List.length a = List.length b ->
  nth m (vzip f a b) 0 = f (nth m a 0) (nth m b 0).
Proof.
  intros M H. unfold vzip. rewrite nth_indep with (d' := (fun p => f (fst p) (snd p)) (0, 0)).
  2:{ rewrite map_length, combine_length. lia. }
  rewrite (map_nth (fun p => f (fst p) (snd p))), combine_nth by exact H. reflexivity.
Qed.

Lemma padded_combine before after n : List.length before = List.length n -> List.length after = List.length n ->
  map (fun p : nat * (nat * nat) => fst (snd p) + fst p + snd (snd p)) (combine n (combine before after)) = padded before n after.
Proof.
  unfold padded, vzip. revert before after. induction n; intros [|x b] [|y a'] H1 H2; cbn in *; try discriminate; [reflexivity|].
  f_equal. apply IHn; lia.
Qed.

Lemma inside_combine before after n p : List.length before = List.length n -> List.length after = List.length n ->
  pad_inside n (combine before after) p = inside before n p.
Proof.
  unfold pad_inside, inside. revert before after p. induction n; intros [|x b] [|y a'] p H1 H2; cbn in *; try discriminate; [reflexivity|].
  destruct p as [|v p]; cbn; [reflexivity|]. f_equal. apply IHn; lia.
Qed.

Lemma shifted_combine before after p : List.length before = List.length after -> List.length p = List.length before ->
  map (fun q : nat * nat * nat => snd q - fst (fst q)) (combine (combine before after) p) = vzip Nat.sub p before.
Proof.
  unfold vzip. revert after p. induction before; intros [|y a'] [|v p] H1 H2; cbn in *; try discriminate; [reflexivity|].
  f_equal. apply IHbefore; lia.
Qed.

Lemma layout_split fmt b n c i : inb (layout fmt b n c) i ->
  exists bi p ci, i = layout fmt bi p ci /\ bi < b /\ inb n p /\ ci < c.
Proof.
  unfold layout. destruct (fmt =? "channels_last"); intros I.
  - destruct i as [|bi i]; [inversion I|]. apply inb_cons in I as [B I].
    apply inb_app_split in I as [p [r [-> [P R]]]]. inversion R as [|ci ? ? ? C R']; subst. inversion R'; subst.
    exists bi, p, ci. repeat split; assumption.
  - destruct i as [|bi [|ci p]]; [inversion I|inversion I as [|? ? ? ? ? I2]; inversion I2|].
    apply inb_cons in I as [B I]. apply inb_cons in I as [C I]. exists bi, p, ci. repeat split; assumption.
Qed.

Lemma layout_inb fmt b n c bi p ci : List.length p = List.length n ->
  (inb (layout fmt b n c) (layout fmt bi p ci) <-> bi < b /\ inb n p /\ ci < c).
Proof.
  intros H. unfold layout. destruct (fmt =? "channels_last").
  - rewrite inb_cons. split.
    + intros [B I]. apply inb_app_inv in I as [P C]; [|exact H]. inversion C; subst. tauto.
    + intros [B [P C]]. split; [exact B|]. apply inb_app; [exact P|]. apply Forall2_cons; [exact C|apply Forall2_nil].
  - rewrite !inb_cons. tauto.
Qed.

Section Border.
Context {A : Type} {ZA : Zero A}.

Lemma pad_border fmt before after (x : tensor A) b n c :
  shape x = layout fmt b n c -> List.length before = List.length n -> List.length after = List.length n ->
  exists y, pad x (pads_in fmt (combine before after)) = Ok y /\ wf y /\ zero_border fmt before after x y.
Proof.
  intros H H1 H2. eexists. split; [|split; [apply wf_tab|exists b, n, c; split; [exact H|split; [exact H1|split; [exact H2|]]]]].
  { unfold pad. replace (List.length (pads_in fmt (combine before after)) =? rank x)%nat with true; [reflexivity|].
    symmetry. apply Nat.eqb_eq. unfold rank. rewrite H. unfold pads_in, layout. destruct (fmt =? "channels_last"); cbn;
    rewrite ?app_length, combine_length; cbn; lia. }
  assert (SH : map (fun p : nat * (nat * nat) => fst (snd p) + fst p + snd (snd p))
      (combine (shape x) (pads_in fmt (combine before after))) = layout fmt b (padded before n after) c).
  { rewrite H. unfold layout, pads_in. destruct (fmt =? "channels_last"); cbn [combine map fst snd].
    - rewrite combine_app by (rewrite combine_length; lia). rewrite map_app, padded_combine by assumption. cbn.
      rewrite !Nat.add_0_r. reflexivity.
    - rewrite padded_combine by assumption. rewrite !Nat.add_0_r, !Nat.add_0_l. reflexivity. }
  rewrite shape_tab. rewrite SH. split; [reflexivity|].
  intros bi p ci I. rewrite at_tab by exact I.
  assert (LP : List.length p = List.length n).
  { apply inb_length in I. unfold layout in I. destruct (fmt =? "channels_last"); cbn in I; rewrite ?app_length in I; cbn in I;
    unfold padded in I; rewrite !length_vzip in I by (rewrite ?length_vzip; lia); lia. }
  apply layout_inb in I; [|unfold padded; rewrite !length_vzip; rewrite ?length_vzip; lia]. destruct I as [B [P C]].
  assert (IN : pad_inside (shape x) (pads_in fmt (combine before after)) (layout fmt bi p ci) = inside before n p).
  { rewrite H. unfold layout, pads_in, pad_inside. destruct (fmt =? "channels_last"); cbn [combine forallb].
    - rewrite combine_app by (rewrite combine_length; lia). rewrite combine_app by (rewrite !combine_length; lia).
      rewrite forallb_app. cbn [combine forallb]. rewrite !Nat.add_0_l. change (forallb _ (combine (combine n (combine before after)) p)) with (pad_inside n (combine before after) p).
      rewrite inside_combine by assumption. rewrite (proj2 (Nat.ltb_lt bi b) B), (proj2 (Nat.ltb_lt ci c) C).
      cbn [Nat.leb andb]. rewrite andb_true_r. reflexivity.
    - change (forallb _ (combine (combine n (combine before after)) p)) with (pad_inside n (combine before after) p).
      rewrite inside_combine by assumption. rewrite !Nat.add_0_l.
      rewrite (proj2 (Nat.ltb_lt bi b) B), (proj2 (Nat.ltb_lt ci c) C). reflexivity. }
  rewrite IN. destruct (inside before n p); [|reflexivity]. f_equal.
  unfold layout, pads_in. destruct (fmt =? "channels_last"); cbn [combine map fst snd]; rewrite ?Nat.sub_0_r.
  - rewrite combine_app by (rewrite combine_length; lia). rewrite map_app, shifted_combine by lia. cbn. rewrite Nat.sub_0_r. reflexivity.
  - rewrite shifted_combine by lia. reflexivity.
Qed.

End Border.

Definition befores (es : list nat) : list nat := map (fun e => e - e / 2) es.
Definition afters (es : list nat) : list nat := map (fun e => e / 2) es.

Lemma split_padding_eq L es :
  map (fun p => (Z.to_nat (fst p), Z.to_nat (snd p))) (split_padding L (map Z.of_nat es))
  = pads_in (pl_format L) (combine (befores es) (afters es)).
Proof.
  unfold split_padding, pads_in. rewrite map_map.
  assert (E : map (fun x : Z => (Z.to_nat (fst (x - x / 2, x / 2)%Z), Z.to_nat (snd (x - x / 2, x / 2)%Z))) (map Z.of_nat es)
      = combine (befores es) (afters es)).
  { rewrite map_map. unfold befores, afters. induction es; cbn [map combine]; [reflexivity|]. f_equal; [|exact IHes].
    cbn [fst snd]. change 2%Z with (Z.of_nat 2). rewrite <- Nat2Z.inj_div. f_equal; lia. }
  destruct (pl_format L =? "channels_last").
  - cbn [map]. rewrite map_app. cbn [map]. cbv zeta. rewrite E. reflexivity.
  - cbn [map]. cbv zeta. rewrite E. reflexivity.
Qed.

(** ** The layer made by [__init__] *)

Lemma standardize_tuple_inv d a l : standardize_tuple d a = Ok l ->
  List.length l = d /\ per_axis d a = map Z.of_nat l /\ (forall x, In x l -> 0 < x).
Proof.
  unfold standardize_tuple. destruct (Nat.eqb_spec (List.length (per_axis d a)) d) as [E|]; [|discriminate].
  destruct (forallb _ _) eqn:F; [|discriminate]. intros [= <-]. rewrite forallb_forall in F.
  split; [rewrite map_length; exact E|]. split.
  - rewrite map_map. symmetry. rewrite <- (map_id (per_axis d a)) at 2. apply map_ext_in. intros z Z.
    specialize (F z Z). apply Z.ltb_lt in F. lia.
  - intros x X. apply in_map_iff in X as [z [<- Z]]. specialize (F z Z). apply Z.ltb_lt in F. lia.
Qed.

Lemma padding_init_inv ks d st p allow fmt tr L :
  padding_init ks d st (Some p) allow fmt tr = Ok L ->
  pl_option L = upper p /\ mem_str (upper p) ["SAME"; "VALID"; "SAME_EQUIV"; "VALID_EQUIV"] = true /\
  pl_built_in L = (if endswith p "_equiv" then drop_last 6 p else p) /\ pl_allow L = allow /\ pl_dims L = d /\
  pl_strides L = per_axis d st /\ pl_kernel L = per_axis d ks /\ pl_format L = fmt /\ pl_transpose L = tr /\
  pl_pads L = None /\ pl_needs L = None.
Proof.
  unfold padding_init, format_padding_option. destruct (mem_str _ _) eqn:M; [|discriminate]. cbn [bind].
  intros [= <-]. cbn. repeat split.
Qed.

(** The axes a padding layer works on. *)
Lemma layer_axes ks st d k s n : standardize_tuple d ks = Ok k -> standardize_tuple d st = Ok s -> List.length n = d ->
  let l := axes_of n k s in
  List.length l = d /\ map ax_n l = n /\ map ax_k l = k /\ map ax_s l = s /\ per_axis d ks = zs ax_k l /\ per_axis d st = zs ax_s l /\ (forall q, In q l -> 0 < ax_s q /\ 0 < ax_k q).
Proof.
  intros HK HS N l. apply standardize_tuple_inv in HK as [LK [EK PK]]. apply standardize_tuple_inv in HS as [LS [ES PS]].
  pose proof (axes_of_n n k s d N LK LS) as An. pose proof (axes_of_k n k s d N LK LS) as Ak. pose proof (axes_of_s n k s d N LK LS) as As.
  fold l in An, Ak, As.
  split; [rewrite <- N, <- An, map_length; reflexivity|].
  split; [exact An|]. split; [exact Ak|]. split; [exact As|].
  split; [rewrite EK; transitivity (map Z.of_nat (map ax_k l)); [rewrite Ak; reflexivity|apply map_map]|].
  split; [rewrite ES; transitivity (map Z.of_nat (map ax_s l)); [rewrite As; reflexivity|apply map_map]|].
  intros q Q. split.
  - apply PS. rewrite <- As. apply in_map. exact Q.
  - apply PK. rewrite <- Ak. apply in_map. exact Q.
Qed.

Lemma nth_axes n k s d m : List.length n = d -> List.length k = d -> List.length s = d -> m < d ->
  nth m (axes_of n k s) (0, 0, 0) = (nth m n 0, nth m k 0, nth m s 0).
Proof.
  intros HN HK HS M. unfold axes_of.
  etransitivity; [apply (combine_nth (combine n k) s m (0, 0) 0); rewrite combine_length; lia|].
  rewrite (combine_nth n k m 0 0) by lia. reflexivity.
Qed.

Lemma nth_map_axes {B} (f : axis -> B) l m d0 : m < List.length l -> nth m (map f l) d0 = f (nth m l (0, 0, 0)).
Proof. intros M. rewrite nth_indep with (d' := f (0, 0, 0)) by (rewrite map_length; exact M). apply map_nth. Qed.

Lemma zero_border_none {A} {ZA : Zero A} fmt (x : tensor A) b n c d :
  shape x = layout fmt b n c -> List.length n = d -> zero_border fmt (repeat 0 d) (repeat 0 d) x x.
Proof.
  intros H N. exists b, n, c. split; [exact H|]. rewrite repeat_length. split; [lia|]. split; [lia|].
  assert (V : vzip Nat.add (vzip Nat.add (repeat 0 d) n) (repeat 0 d) = n).
  { subst d. unfold vzip. clear. induction n; cbn; [reflexivity|]. f_equal; [lia|exact IHn]. }
  split; [rewrite V; exact H|].
  intros bi p ci I. rewrite H in I.
  assert (LP : List.length p = List.length n).
  { apply inb_length in I. unfold layout in I. destruct (fmt =? "channels_last"); cbn in I; rewrite ?app_length in I; cbn in I; lia. }
  apply layout_inb in I; [|exact LP]. destruct I as [_ [P _]].
  assert (IN : inside (repeat 0 d) n p = true).
  { subst d. clear -P. induction P as [|v m p n Hv P IH]; [reflexivity|]. unfold inside in *. cbn [List.length repeat combine forallb].
    rewrite IH. apply Nat.ltb_lt in Hv. cbn [Nat.leb Nat.add]. rewrite Hv. reflexivity. }
  rewrite IN. f_equal. f_equal. subst d. rewrite <- LP. clear. unfold vzip. induction p; cbn; [reflexivity|]. f_equal; [lia|exact IHp].
Qed.

(** Upper and lower case. *)
Lemma upper_lower p : upper (lower p) = upper p.
Proof. induction p as [|c p IH]; [reflexivity|]. cbn [lower upper]. rewrite IH. f_equal. destruct c as [[] [] [] [] [] [] [] []]; vm_compute; reflexivity. Qed.
Lemma lower_upper p : lower (upper p) = lower p.
Proof. induction p as [|c p IH]; [reflexivity|]. cbn [lower upper]. rewrite IH. f_equal. destruct c as [[] [] [] [] [] [] [] []]; vm_compute; reflexivity. Qed.

Lemma mem_str_In s l : mem_str s l = true <-> In s l.
Proof.
  unfold mem_str. rewrite existsb_exists. split.
  - intros [x [I E]]. apply String.eqb_eq in E. subst. exact I.
  - intros I. exists s. split; [exact I|apply String.eqb_refl].
Qed.

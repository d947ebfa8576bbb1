(** Proofs about the character, number and string helpers. *)
From Coq Require Import Ascii String.
From Verif Require Import Common CommonProofs Ints BitsModel BitsProofs SpecBits TextUtil SpecTextUtil.
Open Scope Z_scope.
Local Notation length := List.length.

(** ** daw_ascii.h *)

(** The codes of a literal are an interval. *)
Fixpoint zrange (lo : Z) (n : nat) : list Z :=
  match n with O => [] | S n => lo :: zrange (lo + 1) n end.

Lemma in_zrange lo n c : In c (zrange lo n) <-> lo <= c < lo + Z.of_nat n.
Proof.
  revert lo; induction n as [|n IH]; intros lo; cbn [zrange In].
  - lia.
  - rewrite IH. lia.
Qed.

Lemma nth_zrange lo n k : (k < n)%nat -> nth_error (zrange lo n) k = Some (lo + Z.of_nat k).
Proof.
  revert lo k; induction n as [|n IH]; intros lo k L; [lia|].
  destruct k as [|k]; cbn [zrange nth_error]; [f_equal; lia|].
  rewrite IH by lia. f_equal. lia.
Qed.

Lemma nth_zrange_inv lo n k c : nth_error (zrange lo n) k = Some c ->
  (k < n)%nat /\ c = lo + Z.of_nat k.
Proof.
  revert lo k; induction n as [|n IH]; intros lo k E.
  - destruct k; discriminate.
  - destruct k as [|k]; cbn [zrange nth_error] in E.
    + injection E as <-. lia.
    + apply IH in E. lia.
Qed.

Lemma digit_range : digit_chars = zrange 48 10. Proof. reflexivity. Qed.
Lemma lower_range : lower_chars = zrange 97 26. Proof. reflexivity. Qed.
Lemma upper_range : upper_chars = zrange 65 26. Proof. reflexivity. Qed.
Lemma printable_range : printable_chars = zrange 32 95. Proof. reflexivity. Qed.

Lemma is_ascii_digit_ok c : is_ascii_digit c = true <-> In c digit_chars.
Proof. unfold is_ascii_digit. rewrite digit_range, in_zrange, andb_true_iff. lia. Qed.
Lemma is_ascii_alpha_ok c : is_ascii_alpha c = true <-> In c (upper_chars ++ lower_chars)%list.
Proof.
  unfold is_ascii_alpha.
  rewrite in_app_iff, lower_range, upper_range, !in_zrange, orb_true_iff, !andb_true_iff. lia.
Qed.
Lemma is_ascii_alphanum_ok c :
  is_ascii_alphanum c = true <-> In c (digit_chars ++ upper_chars ++ lower_chars)%list.
Proof.
  unfold is_ascii_alphanum.
  rewrite in_app_iff, orb_true_iff, is_ascii_digit_ok, is_ascii_alpha_ok. tauto.
Qed.
Lemma is_ascii_printable_ok c : is_ascii_printable c = true <-> In c printable_chars.
Proof. unfold is_ascii_printable. rewrite printable_range, in_zrange, andb_true_iff. lia. Qed.

Lemma conv_small T z : std_int T -> 0 <= z < 128 -> conv T z = z.
Proof.
  intros ST B. unfold conv, swrap, wrap.
  destruct ST as [E|[E|[E|E]]]; rewrite E; rewrite Z.mod_small by lia;
    destruct (signed T); auto;
    match goal with |- (if ?x <? ?y then _ else _) = _ => destruct (Z.ltb_spec x y) end; lia.
Qed.

Lemma to_upper_ok T c : std_int T -> letter_mapped lower_chars upper_chars c (to_upper_ascii T c).
Proof.
  intros ST. unfold to_upper_ascii, letter_mapped. rewrite lower_range, upper_range. split.
  - intros k E. apply nth_zrange_inv in E. destruct E as [L ->].
    replace ((97 <=? 97 + Z.of_nat k) && (97 + Z.of_nat k <=? 122)) with true
      by (symmetry; apply andb_true_iff; lia).
    rewrite conv_small by (auto; lia). rewrite nth_zrange by auto. f_equal. lia.
  - intros N. rewrite in_zrange in N.
    destruct (Z.leb_spec 97 c); [|reflexivity]. destruct (Z.leb_spec c 122); [lia|reflexivity].
Qed.

Lemma to_lower_ok T c : std_int T -> letter_mapped upper_chars lower_chars c (to_lower_ascii T c).
Proof.
  intros ST. unfold to_lower_ascii, letter_mapped. rewrite lower_range, upper_range. split.
  - intros k E. apply nth_zrange_inv in E. destruct E as [L ->].
    replace ((65 <=? 65 + Z.of_nat k) && (65 + Z.of_nat k <=? 90)) with true
      by (symmetry; apply andb_true_iff; lia).
    rewrite conv_small by (auto; lia). rewrite nth_zrange by auto. f_equal. lia.
  - intros N. rewrite in_zrange in N.
    destruct (Z.leb_spec 65 c); [|reflexivity]. destruct (Z.leb_spec c 90); [lia|reflexivity].
Qed.

Lemma char_cases (P : Z -> Prop) lo n : (forall k, (k < n)%nat -> P (lo + Z.of_nat k)) ->
  forall c, lo <= c < lo + Z.of_nat n -> P c.
Proof. intros H c B. replace c with (lo + Z.of_nat (Z.to_nat (c - lo))) by lia. apply H. lia. Qed.

Lemma letters_ok (f : Z -> bool) lo n : forallb f (zrange lo n) = true ->
  forall c, lo <= c < lo + Z.of_nat n -> f c = true.
Proof. intros F c B. rewrite forallb_forall in F. apply F. apply in_zrange. lia. Qed.

Lemma AsciiUpper_agrees C c : width C = 8 -> AsciiUpper C c = to_upper_ascii C c.
Proof.
  intros W. unfold AsciiUpper, to_upper_ascii.
  destruct (Z.leb_spec 97 c); [|reflexivity]. destruct (Z.leb_spec c 122); [|reflexivity].
  cbn [andb].
  assert (E : Z.land (conv u32 (conv u8 c)) (2 ^ 32 - 1 - 32) = c - 32).
  { apply Z.eqb_eq.
    apply (letters_ok (fun c => Z.land (conv u32 (conv u8 c)) (2 ^ 32 - 1 - 32) =? c - 32) 97 26 eq_refl).
    lia. }
  rewrite E. reflexivity.
Qed.

Lemma AsciiLower_agrees C c : width C = 8 -> AsciiLower C c = to_lower_ascii C c.
Proof.
  intros W. unfold AsciiLower, to_lower_ascii.
  destruct (Z.leb_spec 65 c); [|reflexivity]. destruct (Z.leb_spec c 90); [|reflexivity].
  cbn [andb].
  assert (E : conv u8 (Z.lor (conv u32 (conv u8 c)) 32) = c + 32).
  { apply Z.eqb_eq.
    apply (letters_ok (fun c => conv u8 (Z.lor (conv u32 (conv u8 c)) 32) =? c + 32) 65 26 eq_refl).
    lia. }
  rewrite E. reflexivity.
Qed.

Lemma map_ext_Forall {A B} (f g : A -> B) (P : A -> Prop) l :
  (forall x, P x -> f x = g x) -> Forall P l -> map f l = map g l.
Proof. intros H F. induction F; cbn [map]; [reflexivity|]. rewrite H, IHF; auto. Qed.

Lemma to_upper_fits T c : std_int T -> fits T c -> fits T (to_upper_ascii T c).
Proof.
  intros ST F. unfold to_upper_ascii. destruct (_ && _); [|exact F].
  apply conv_fits. destruct ST; lia.
Qed.
Lemma to_lower_fits T c : std_int T -> fits T c -> fits T (to_lower_ascii T c).
Proof.
  intros ST F. unfold to_lower_ascii. destruct (_ && _); [|exact F].
  apply conv_fits. destruct ST; lia.
Qed.

Lemma AsciiUpper_str_ok C s : width C = 8 -> Forall (fits C) s ->
  AsciiUpper_str C C s = map (to_upper_ascii C) s.
Proof.
  intros W. apply map_ext_Forall. intros x F. rewrite AsciiUpper_agrees by auto.
  rewrite (conv_id C x) by (auto; lia). apply conv_id; [lia|].
  apply to_upper_fits; auto. left. auto.
Qed.
Lemma AsciiLower_str_ok C s : width C = 8 -> Forall (fits C) s ->
  AsciiLower_str C C s = map (to_lower_ascii C) s.
Proof.
  intros W. apply map_ext_Forall. intros x F. rewrite AsciiLower_agrees by auto.
  rewrite (conv_id C x) by (auto; lia). apply conv_id; [lia|].
  apply to_lower_fits; auto. left. auto.
Qed.

Lemma to_upper_val T c : std_int T -> 0 <= c < 128 ->
  to_upper_ascii T c = (if (97 <=? c) && (c <=? 122) then c - 32 else c) /\
  0 <= to_upper_ascii T c < 128.
Proof.
  intros ST B. unfold to_upper_ascii.
  destruct (Z.leb_spec 97 c); [destruct (Z.leb_spec c 122)|]; cbn [andb];
    try rewrite conv_small by (auto; lia); lia.
Qed.
Lemma to_lower_val T c : std_int T -> 0 <= c < 128 ->
  to_lower_ascii T c = (if (65 <=? c) && (c <=? 90) then c + 32 else c) /\
  0 <= to_lower_ascii T c < 128.
Proof.
  intros ST B. unfold to_lower_ascii.
  destruct (Z.leb_spec 65 c); [destruct (Z.leb_spec c 90)|]; cbn [andb];
    try rewrite conv_small by (auto; lia); lia.
Qed.

Lemma AsciiUpper_wide C W s : width C = 8 -> std_int W -> Forall (fun c => 0 <= c < 128) s ->
  AsciiUpper_str C W s = map (to_upper_ascii W) s.
Proof.
  intros WC SW. apply map_ext_Forall. intros x F. rewrite AsciiUpper_agrees by auto.
  assert (SC : std_int C) by (left; auto).
  rewrite (conv_small C) by auto.
  destruct (to_upper_val C x SC F) as [E1 B1]. destruct (to_upper_val W x SW F) as [E2 _].
  rewrite conv_small by auto. congruence.
Qed.
Lemma AsciiLower_wide C W s : width C = 8 -> std_int W -> Forall (fun c => 0 <= c < 128) s ->
  AsciiLower_str C W s = map (to_lower_ascii W) s.
Proof.
  intros WC SW. apply map_ext_Forall. intros x F. rewrite AsciiLower_agrees by auto.
  assert (SC : std_int C) by (left; auto).
  rewrite (conv_small C) by auto.
  destruct (to_lower_val C x SC F) as [E1 B1]. destruct (to_lower_val W x SW F) as [E2 _].
  rewrite conv_small by auto. congruence.
Qed.

Lemma fits_char C c : width C = 8 -> fits C c -> -128 <= c < 256.
Proof. intros W F. unfold fits, lowest, highest in F. rewrite W in F. destruct (signed C); cbn in F; lia. Qed.

Lemma conv_char_wide W r c : std_int W -> 16 <= width W -> -128 <= r < 256 -> 256 <= c < 2 ^ 15 ->
  conv W r <> c.
Proof.
  intros SW G B L. unfold conv, swrap, wrap.
  assert (E : r mod 2 ^ width W = if r <? 0 then r + 2 ^ width W else r).
  { destruct (Z.ltb_spec r 0).
    - rewrite <- (Z.mod_small (r + 2 ^ width W) (2 ^ width W)).
      + rewrite <- Z.add_mod_idemp_r by (destruct SW as [E|[E|[E|E]]]; rewrite E; lia).
        rewrite Z.mod_same by (destruct SW as [E|[E|[E|E]]]; rewrite E; lia).
        f_equal. lia.
      + destruct SW as [E|[E|[E|E]]]; rewrite E; lia.
    - apply Z.mod_small. destruct SW as [E|[E|[E|E]]]; rewrite E; lia. }
  rewrite E. destruct SW as [E1|[E1|[E1|E1]]]; rewrite E1 in *; try lia;
    destruct (signed W); cbn -[Z.ltb] in *; destruct (Z.ltb_spec r 0); try lia;
    match goal with |- (if ?x <? ?y then _ else _) <> _ => destruct (Z.ltb_spec x y) end; lia.
Qed.

Lemma AsciiUpper_wide_refuted C W c : width C = 8 -> std_int W -> 16 <= width W ->
  256 <= c < 2 ^ 15 -> AsciiUpper_str C W [c] <> [c] /\ AsciiLower_str C W [c] <> [c].
Proof.
  intros WC SW G B. unfold AsciiUpper_str, AsciiLower_str. cbn [map].
  assert (SC : std_int C) by (left; auto).
  rewrite AsciiUpper_agrees, AsciiLower_agrees by auto.
  assert (F : fits C (conv C c)) by (apply conv_fits; lia).
  split; intros E; injection E; apply conv_char_wide; auto; apply (fits_char C); auto.
  - apply to_upper_fits; auto.
  - apply to_lower_fits; auto.
Qed.

(** ** hex *)

Fixpoint put_text (o : out_it) (t : list Z) : res out_it :=
  match t with
  | [] => Ok o
  | c :: t => o <- out_put o c ;; put_text (out_next o) t
  end.

Lemma put_text_app o t1 t2 :
  put_text o (t1 ++ t2) = (o <- put_text o t1 ;; put_text o t2).
Proof.
  revert o; induction t1 as [|c t1 IH]; intros o; cbn [put_text app]; [reflexivity|].
  destruct (out_put o c); cbn [bind]; auto.
Qed.

Lemma upd_mid {A} (pre : list A) x y post : upd (pre ++ x :: post) (length pre) y = (pre ++ y :: post)%list.
Proof. induction pre as [|p pre IH]; cbn [upd app List.length]; [reflexivity|]. now rewrite IH. Qed.

Lemma put_text_ok o t : room o (length t) -> exists o', put_text o t = Ok o' /\ emitted o t o'.
Proof.
  destruct o as [b p|s]; cbn [room emitted].
  - revert b p; induction t as [|c t IH]; intros b p R; cbn [put_text].
    + eexists. split; [reflexivity|].
      exists (firstn p b), [], (skipn p b). cbn [app List.length] in *.
      rewrite firstn_skipn, firstn_length. repeat split; try lia. f_equal; lia.
    + cbn [out_put List.length] in *. unfold wr. destruct (Nat.ltb_spec p (length b)); [|lia].
      cbn [bind out_next]. destruct (IH (upd b p c) (S p)) as (o' & E & pre & old & post & E1 & E2 & E3 & E4).
      { rewrite upd_length. lia. }
      exists o'. split; [exact E|].
      assert (exists pre0, pre = (pre0 ++ [c])%list /\ length pre0 = p) as (pre0 & -> & L0).
      { destruct (exists_last (l := pre)) as (q & z & ->).
        { intros ->. discriminate E2. }
        rewrite app_length in E2. cbn in E2. exists q. split; [|lia]. f_equal. f_equal.
        assert (N : nth_error (upd b p c) p = Some c) by (apply nth_error_upd_eq; auto).
        rewrite E1, <- app_assoc, nth_error_app2 in N by lia.
        replace (p - length q)%nat with 0%nat in N by lia. cbn in N. congruence. }
      destruct (nth_error b p) as [x|] eqn:Nx; [|apply nth_error_None in Nx; lia].
      exists pre0, (x :: old), post. split; [|split; [exact L0|split; [cbn; lia|]]].
      * assert (Q : b = upd (upd b p c) p x).
        { clear -H Nx. revert p Nx H; induction b as [|y b IHb]; intros p Nx H; [cbn in H; lia|].
          destruct p; cbn [nth_error upd] in *; [congruence|]. f_equal. apply IHb; auto. cbn in H; lia. }
        rewrite E1 in Q. rewrite <- app_assoc in Q. cbn [app] in Q. rewrite <- L0 in Q.
        rewrite upd_mid in Q. rewrite Q. cbn [app]. reflexivity.
      * rewrite E4. rewrite <- app_assoc. cbn [app]. f_equal. cbn [List.length]. lia.
  - intros _. revert s; induction t as [|c t IH]; intros s; cbn [put_text out_put bind out_next].
    + eexists. split; [reflexivity|]. now rewrite app_nil_r.
    + destruct (IH (s ++ [c])%list) as (o' & E & ->). exists (Back ((s ++ [c]) ++ t)).
      split; [exact E|]. now rewrite <- app_assoc.
Qed.

Definition nib (c : Z) : Z := nth (Z.to_nat c) hex_chars 0.
Definition nib_lc (c : Z) : Z := nth (Z.to_nat c) hex_lc_chars 0.

Lemma get_nibble_ok c : 0 <= c < 16 -> get_nibble c = nib c /\ get_lc_nibble c = nib_lc c.
Proof.
  intros B. pose proof (letters_ok (fun c => (get_nibble c =? nib c) && (get_lc_nibble c =? nib_lc c)) 0 16 eq_refl c) as H.
  specialize (H ltac:(lia)). apply andb_true_iff in H. lia.
Qed.

Definition two (n : Z) : list Z := [n / 16; n mod 16].

Lemma hex_char_text c o :
  hex_char c o = put_text o (map nib (two (c mod 256))) /\
  hex_lc_char c o = put_text o (map nib_lc (two (c mod 256))).
Proof.
  unfold hex_char, hex_lc_char, two. cbn [map put_text].
  assert (E : conv u8 c = c mod 256) by reflexivity. rewrite E.
  assert (B : 0 <= c mod 256 < 256) by (apply Z.mod_pos_bound; lia).
  assert (B1 : 0 <= c mod 256 / 16 < 16) by (split; [apply Z.div_pos; lia|apply Z.div_lt_upper_bound; lia]).
  assert (B2 : 0 <= (c mod 256) mod 16 < 16) by (apply Z.mod_pos_bound; lia).
  rewrite Z.shiftr_div_pow2 by lia. change (2 ^ 4) with 16.
  change 15 with (Z.ones 4) at 1 2. rewrite !Z.land_ones by lia. change (2 ^ 4) with 16.
  destruct (get_nibble_ok _ B1) as [-> ->]. destruct (get_nibble_ok _ B2) as [-> ->].
  split.
  - destruct (out_put o _) as [o1| | |]; cbn [bind]; [|reflexivity..].
    destruct (out_put (out_next o1) _); reflexivity.
  - destruct (out_put o _) as [o1| | |]; cbn [bind]; [|reflexivity..].
    destruct (out_put (out_next o1) _); reflexivity.
Qed.

(** The base 16 digits of the low [n] bytes, most significant first. *)
Fixpoint digits16 (n : nat) (v : Z) : list Z :=
  match n with
  | O => []
  | S k => two (v / 2 ^ (8 * Z.of_nat k) mod 256) ++ digits16 k v
  end.

Lemma conv_mod256 C z : width C = 8 -> conv C z mod 256 = z mod 256.
Proof. intros W. pose proof (conv_wrap C z) as E. rewrite W in E. apply E. lia. Qed.

Lemma hex_int_loop_text C n v o : width C = 8 ->
  hex_int_loop C n v o = put_text o (map nib (digits16 n v)).
Proof.
  intros W. revert o; induction n as [|k IH]; intros o; cbn [hex_int_loop digits16]; [reflexivity|].
  rewrite map_app, put_text_app, (proj1 (hex_char_text _ o)), conv_mod256 by auto.
  rewrite Z.shiftr_div_pow2 by lia.
  destruct (put_text o _) as [o1| | |]; cbn [bind]; [|reflexivity..]. apply IH.
Qed.

Lemma two_range n : 0 <= n < 256 -> Forall (fun d => 0 <= d < 16) (two n).
Proof.
  intros B. repeat constructor; try (apply Z.div_pos; lia); try (apply Z.div_lt_upper_bound; lia);
    apply Z.mod_pos_bound; lia.
Qed.
Lemma digits16_range n v : Forall (fun d => 0 <= d < 16) (digits16 n v).
Proof.
  induction n as [|k IH]; cbn [digits16]; [constructor|]. apply Forall_app. split; [|exact IH].
  apply two_range. apply Z.mod_pos_bound. lia.
Qed.
Lemma digits16_length n v : length (digits16 n v) = (2 * n)%nat.
Proof. induction n as [|k IH]; cbn [digits16]; [reflexivity|]. rewrite app_length, IH. cbn. lia. Qed.

Definition value16 (ds : list Z) : Z := fold_left (fun a d => 16 * a + d) ds 0.
Lemma value16_app a l1 l2 : fold_left (fun a d => 16 * a + d) (l1 ++ l2) a =
  fold_left (fun a d => 16 * a + d) l2 (fold_left (fun a d => 16 * a + d) l1 a).
Proof. apply fold_left_app. Qed.
Lemma fold16 ds a : fold_left (fun a d => 16 * a + d) ds a =
  a * 16 ^ Z.of_nat (length ds) + fold_left (fun a d => 16 * a + d) ds 0.
Proof.
  revert a; induction ds as [|d ds IH]; intros a; cbn [fold_left List.length].
  - cbn. lia.
  - rewrite IH, (IH (16 * 0 + d)). rewrite Nat2Z.inj_succ, Z.pow_succ_r by lia. lia.
Qed.

Lemma digits16_value n v : value16 (digits16 n v) = v mod 2 ^ (8 * Z.of_nat n).
Proof.
  unfold value16. induction n as [|k IH]; cbn [digits16].
  - cbn. symmetry. apply Z.mod_1_r.
  - rewrite fold_left_app, fold16, IH, digits16_length.
    set (b := v / 2 ^ (8 * Z.of_nat k) mod 256).
    assert (E : fold_left (fun a d => 16 * a + d) (two b) 0 = b).
    { unfold two. cbn [fold_left]. pose proof (Z.div_mod b 16). lia. }
    rewrite E. unfold b.
    replace (16 ^ Z.of_nat (2 * k)) with (2 ^ (8 * Z.of_nat k)).
    2:{ change 16 with (2 ^ 4). rewrite <- Z.pow_mul_r by lia. f_equal. lia. }
    replace (8 * Z.of_nat (S k)) with (8 * Z.of_nat k + 8) by lia.
    rewrite Z.pow_add_r by lia. change (2 ^ 8) with 256.
    rewrite Z.rem_mul_r by lia. lia.
Qed.

Lemma base16_of digits f ds : (forall d, 0 <= d < 16 -> nth_error digits (Z.to_nat d) = Some (f d)) ->
  Forall (fun d => 0 <= d < 16) ds -> base16 digits (map f ds) (value16 ds).
Proof.
  intros H F. exists ds. split; [|reflexivity].
  induction F; cbn [map]; constructor; auto.
Qed.
Lemma nib_nth d : 0 <= d < 16 -> nth_error hex_chars (Z.to_nat d) = Some (nib d).
Proof. intros B. apply nth_error_nth'. cbn. lia. Qed.
Lemma nib_lc_nth d : 0 <= d < 16 -> nth_error hex_lc_chars (Z.to_nat d) = Some (nib_lc d).
Proof. intros B. apply nth_error_nth'. cbn. lia. Qed.

Lemma bytes_of T : std_int T -> 8 * Z.of_nat (Z.to_nat (width T / 8)) = width T.
Proof. intros [E|[E|[E|E]]]; rewrite E; reflexivity. Qed.

Lemma hex_int_ok C T v o : width C = 8 -> std_int T ->
  room o (Z.to_nat (width T / 4)) ->
  exists t o', hex_int C T v o = Ok o' /\ emitted o t o' /\
    Z.of_nat (length t) = width T / 4 /\ base16 hex_chars t (v mod 2 ^ width T).
Proof.
  intros W ST R. unfold hex_int. rewrite hex_int_loop_text by auto.
  set (n := Z.to_nat (width T / 8)). pose proof (bytes_of T ST) as Bn. fold n in Bn.
  exists (map nib (digits16 n v)).
  assert (L : length (map nib (digits16 n v)) = (2 * n)%nat) by now rewrite map_length, digits16_length.
  assert (D : width T / 4 = 2 * Z.of_nat n).
  { rewrite <- Bn. replace (8 * Z.of_nat n) with (2 * Z.of_nat n * 4) by lia. apply Z.div_mul. lia. }
  destruct (put_text_ok o (map nib (digits16 n v))) as (o' & E & M).
  { rewrite L. rewrite D in R. replace (2 * n)%nat with (Z.to_nat (2 * Z.of_nat n)) by lia. exact R. }
  exists o'. repeat split; auto; [lia|].
  rewrite <- Bn, <- digits16_value. apply base16_of; [apply nib_nth|apply digits16_range].
Qed.

Lemma hex_range_text C T vals o : width C = 8 ->
  hex_range C T vals o =
  put_text o (List.concat (map (fun v => map nib (digits16 (Z.to_nat (width T / 8)) v)) vals)).
Proof.
  intros W. revert o; induction vals as [|v vals IH]; intros o; cbn [hex_range map List.concat]; [reflexivity|].
  rewrite put_text_app. unfold hex_int. rewrite hex_int_loop_text by auto.
  destruct (put_text o _) as [o1| | |]; cbn [bind]; [|reflexivity..]. apply IH.
Qed.

Lemma concat_length_const {A} (ls : list (list A)) k : Forall (fun l => length l = k) ls ->
  length (List.concat ls) = (length ls * k)%nat.
Proof. intros F. induction F; cbn [List.concat List.length]; [reflexivity|]. rewrite app_length. lia. Qed.

Lemma hex_range_ok C T vals o : width C = 8 -> std_int T ->
  room o (length vals * Z.to_nat (width T / 4)) ->
  exists ts o', hex_range C T vals o = Ok o' /\ emitted o (List.concat ts) o' /\
    Forall2 (fun v t => Z.of_nat (length t) = width T / 4 /\ base16 hex_chars t (v mod 2 ^ width T)) vals ts.
Proof.
  intros W ST R. rewrite hex_range_text by auto.
  set (n := Z.to_nat (width T / 8)). pose proof (bytes_of T ST) as Bn. fold n in Bn.
  assert (D : width T / 4 = 2 * Z.of_nat n).
  { rewrite <- Bn. replace (8 * Z.of_nat n) with (2 * Z.of_nat n * 4) by lia. apply Z.div_mul. lia. }
  exists (map (fun v => map nib (digits16 n v)) vals).
  destruct (put_text_ok o (List.concat (map (fun v => map nib (digits16 n v)) vals))) as (o' & E & M).
  { rewrite (concat_length_const _ (2 * n)).
    - rewrite map_length. rewrite D in R. replace (2 * n)%nat with (Z.to_nat (2 * Z.of_nat n)) by lia. exact R.
    - apply Forall_forall. intros l I. apply in_map_iff in I. destruct I as (v & <- & _).
      now rewrite map_length, digits16_length. }
  exists o'. repeat split; auto. clear -Bn D.
  induction vals as [|v vals IH]; cbn [map]; constructor; auto.
  rewrite map_length, digits16_length. split; [lia|].
  rewrite <- Bn, <- digits16_value. apply base16_of; [apply nib_nth|apply digits16_range].
Qed.

Definition byte_text (c : Z) : list Z := map nib (two (c mod 256)).

Lemma byte_text_ok c : length (byte_text c) = 2%nat /\ base16 hex_chars (byte_text c) (c mod 256).
Proof.
  split; [reflexivity|]. unfold byte_text.
  assert (B : 0 <= c mod 256 < 256) by (apply Z.mod_pos_bound; lia).
  replace (c mod 256) with (value16 (two (c mod 256))) at 2.
  - apply base16_of; [apply nib_nth|apply two_range; auto].
  - unfold value16, two. cbn [fold_left]. pose proof (Z.div_mod (c mod 256) 16). lia.
Qed.

Lemma byte_texts l : Forall2 (fun c t => length t = 2%nat /\ base16 hex_chars t (c mod 256)) l (map byte_text l).
Proof. induction l; cbn [map]; constructor; auto. apply byte_text_ok. Qed.

Lemma byte_texts_length l : length (List.concat (map byte_text l)) = (length l * 2)%nat.
Proof.
  rewrite (concat_length_const _ 2); [now rewrite map_length|].
  apply Forall_forall. intros x I. apply in_map_iff in I. destruct I as (c & <- & _). reflexivity.
Qed.

Lemma hex_lc_ok c o : room o 2 ->
  exists t o', hex_lc_char c o = Ok o' /\ emitted o t o' /\
    length t = 2%nat /\ base16 hex_lc_chars t (c mod 256).
Proof.
  intros R. rewrite (proj2 (hex_char_text c o)).
  destruct (put_text_ok o (map nib_lc (two (c mod 256)))) as (o' & E & M); [exact R|].
  exists (map nib_lc (two (c mod 256))), o'. repeat split; auto.
  assert (B : 0 <= c mod 256 < 256) by (apply Z.mod_pos_bound; lia).
  replace (c mod 256) with (value16 (two (c mod 256))) at 2.
  - apply base16_of; [apply nib_lc_nth|apply two_range; auto].
  - unfold value16, two. cbn [fold_left]. pose proof (Z.div_mod (c mod 256) 16). lia.
Qed.

Lemma hex_char_ok c o : room o 2 ->
  exists t o', hex_char c o = Ok o' /\ emitted o t o' /\
    length t = 2%nat /\ base16 hex_chars t (c mod 256).
Proof.
  intros R. rewrite (proj1 (hex_char_text c o)).
  destruct (put_text_ok o (byte_text c)) as (o' & E & M); [exact R|].
  exists (byte_text c), o'. repeat split; auto. apply byte_text_ok.
Qed.

Lemma hex_str_loop_text str n len o : (n + len <= length str)%nat ->
  hex_str_loop str n len o = put_text o (List.concat (map byte_text (firstn len (skipn n str)))).
Proof.
  revert n o; induction len as [|len IH]; intros n o L; cbn [hex_str_loop]; [reflexivity|].
  destruct (nth_error str n) as [c|] eqn:N; [|apply nth_error_None in N; lia].
  unfold rd. rewrite N. cbn [bind].
  assert (K : skipn n str = c :: skipn (S n) str).
  { clear -N. revert n N; induction str as [|x str IH]; intros [|n] N; try discriminate.
    - injection N as ->. reflexivity.
    - cbn [skipn]. rewrite IH by auto. reflexivity. }
  rewrite K. cbn [firstn map List.concat]. rewrite put_text_app.
  rewrite (proj1 (hex_char_text c o)). fold (byte_text c).
  destruct (put_text o (byte_text c)) as [o1| | |]; cbn [bind]; [|reflexivity..].
  apply IH. lia.
Qed.

Lemma hex_str_ok str len o : (len <= length str)%nat -> room o (len * 2) ->
  exists ts o', hex_str str len o = Ok o' /\ emitted o (List.concat ts) o' /\
    Forall2 (fun c t => length t = 2%nat /\ base16 hex_chars t (c mod 256)) (firstn len str) ts.
Proof.
  intros L R. unfold hex_str. rewrite hex_str_loop_text by auto. cbn [skipn].
  exists (map byte_text (firstn len str)).
  destruct (put_text_ok o (List.concat (map byte_text (firstn len str)))) as (o' & E & M).
  { rewrite byte_texts_length, firstn_length_le by auto. exact R. }
  exists o'. repeat split; auto. apply byte_texts.
Qed.

Lemma hex_array_ok str z o : room o (length str * 2) ->
  exists ts o', hex_array (str ++ [z]) o = Ok o' /\ emitted o (List.concat ts) o' /\
    Forall2 (fun c t => length t = 2%nat /\ base16 hex_chars t (c mod 256)) str ts.
Proof.
  intros R. unfold hex_array. rewrite app_length. cbn [List.length].
  replace (length str + 1 - 1)%nat with (length str) by lia.
  destruct (hex_str_ok (str ++ [z]) (length str) o) as (ts & o' & E & M & F).
  { rewrite app_length. lia. }
  { exact R. }
  exists ts, o'. repeat split; auto.
  rewrite firstn_app, Nat.sub_diag, firstn_all, firstn_O, app_nil_r in F. exact F.
Qed.

Lemma hex_object_back bytes s :
  exists ts, hex_object bytes (Back s) = Ok (Back (s ++ List.concat ts)) /\
    Forall2 (fun c t => length t = 2%nat /\ base16 hex_chars t (c mod 256)) bytes ts.
Proof.
  exists (map byte_text bytes). split; [|apply byte_texts].
  revert s; induction bytes as [|b bytes IH]; intros s; cbn [hex_object map List.concat].
  - now rewrite app_nil_r.
  - destruct (put_text_ok (Back s) (byte_text b)) as (o' & E & M); [exact Logic.I|].
    cbn [emitted] in M. subst o'. rewrite (proj1 (hex_char_text b (Back s))).
    fold (byte_text b). rewrite E. cbn [bind out_next]. rewrite IH, app_assoc. reflexivity.
Qed.

Lemma put_text_buf_length t b p o : put_text (Buf b p) t = Ok o ->
  exists b', o = Buf b' (p + length t) /\ length b' = length b.
Proof.
  revert b p; induction t as [|c t IH]; intros b p E; cbn [put_text out_put] in E.
  - injection E as <-. exists b. split; [f_equal; cbn; lia|reflexivity].
  - unfold wr in E. destruct (p <? length b)%nat; [|discriminate]. cbn [bind out_next] in E.
    apply IH in E. destruct E as (b' & -> & L). exists b'. split; [f_equal; cbn; lia|].
    now rewrite L, upd_length.
Qed.

Lemma hex_char_no_room c b p : (length b < p + 2)%nat -> hex_char c (Buf b p) = UB.
Proof.
  intros L. rewrite (proj1 (hex_char_text c _)). unfold two. cbn [map put_text out_put]. unfold wr.
  destruct (Nat.ltb_spec p (length b)); [|reflexivity]. cbn [bind out_next out_put].
  unfold wr. rewrite upd_length. destruct (Nat.ltb_spec (S p) (length b)); [lia|reflexivity].
Qed.

Lemma hex_object_overruns bytes b p : bytes <> [] -> (length b < p + 3 * length bytes - 1)%nat ->
  hex_object bytes (Buf b p) = UB.
Proof.
  revert b p; induction bytes as [|c bytes IH]; intros b p N L; [congruence|].
  cbn [hex_object]. destruct bytes as [|d bytes].
  - cbn [List.length] in L. rewrite hex_char_no_room by lia. reflexivity.
  - rewrite (proj1 (hex_char_text c _)).
    destruct (put_text (Buf b p) (map nib (two (c mod 256)))) as [o1| | |] eqn:E; cbn [bind].
    + apply put_text_buf_length in E. destruct E as (b' & -> & Lb). cbn [out_next].
      apply IH; [discriminate|]. rewrite Lb. cbn [List.length map two] in *. lia.
    + reflexivity.
    + exfalso. clear -E. unfold two in E. cbn [map put_text out_put] in E. unfold wr in E.
      destruct (p <? length b)%nat; [|discriminate]. cbn [bind out_next out_put] in E. unfold wr in E.
      destruct (S p <? length (upd b p (nib (c mod 256 / 16))))%nat; discriminate.
    + exfalso. clear -E. unfold two in E. cbn [map put_text out_put] in E. unfold wr in E.
      destruct (p <? length b)%nat; [|discriminate]. cbn [bind out_next out_put] in E. unfold wr in E.
      destruct (S p <? length (upd b p (nib (c mod 256 / 16))))%nat; discriminate.
Qed.

Lemma hex_objects_ignores in1 in2 o : length in1 = length in2 -> hex_objects in1 o = hex_objects in2 o.
Proof.
  revert in2 o; induction in1 as [|x in1 IH]; intros [|y in2] o L; try discriminate; [reflexivity|].
  cbn [hex_objects]. destruct o as [b p|s]; [|reflexivity].
  destruct (rd b p); cbn [bind]; auto. destruct (hex_char a (Buf b p)); cbn [bind]; auto.
Qed.

(** Reading the text back. *)
Lemma base16_unique digits t v w : NoDup digits -> base16 digits t v -> base16 digits t w -> v = w.
Proof.
  intros ND (d1 & F1 & <-) (d2 & F2 & <-). f_equal.
  revert d2 F2; induction F1 as [|d c ds t [B E] F IH]; intros d2 F2; inversion F2 as [|d' c' ds' t' [B' E'] F']; subst; [reflexivity|].
  f_equal; [|apply IH; auto].
  assert (Z.to_nat d' = Z.to_nat d).
  { apply (NoDup_nth_error digits); auto; [|congruence]. apply nth_error_Some. congruence. }
  lia.
Qed.

Lemma emitted_back_inj s t1 t2 o : emitted (Back s) t1 o -> emitted (Back s) t2 o -> t1 = t2.
Proof. cbn [emitted]. intros -> E. injection E as E. apply app_inv_head in E. auto. Qed.

Lemma hex_int_injective C T v w s : width C = 8 -> std_int T -> fits T v -> fits T w ->
  hex_int C T v (Back s) = hex_int C T w (Back s) -> v = w.
Proof.
  intros W ST Fv Fw E.
  destruct (hex_int_ok C T v (Back s) W ST Logic.I) as (t1 & o1 & E1 & M1 & L1 & B1).
  destruct (hex_int_ok C T w (Back s) W ST Logic.I) as (t2 & o2 & E2 & M2 & L2 & B2).
  assert (o1 = o2) by congruence. subst o2.
  assert (t1 = t2) by (eapply emitted_back_inj; eauto). subst t2.
  assert (ND : NoDup hex_chars).
  { repeat constructor; cbn; intros HH;
      repeat match goal with H : _ \/ _ |- _ => destruct H as [H|H] end; try discriminate; auto. }
  pose proof (base16_unique _ _ _ _ ND B1 B2) as Em.
  assert (G : 0 < width T) by (destruct ST; lia).
  rewrite <- (conv_id T v), <- (conv_id T w) by auto.
  rewrite <- (conv_wrap_arg T v), <- (conv_wrap_arg T w) by auto. unfold wrap. now rewrite Em.
Qed.

(** ** Numbers *)

Lemma ones_half n v : ones (S n) v = ones n (v / 2) + v mod 2.
Proof.
  unfold ones. revert v. induction n as [|n IH]; intros v.
  - cbn [low_bits filter]. rewrite Z.bit0_odd. rewrite Zmod_odd. destruct (Z.odd v); reflexivity.
  - cbn [low_bits filter] in *.
    assert (E : Z.testbit (v / 2) (Z.of_nat n) = Z.testbit v (Z.of_nat (S n))).
    { rewrite Z.div2_bits by lia. f_equal. lia. }
    rewrite E. specialize (IH v).
    destruct (Z.testbit v (Z.of_nat (S n))) eqn:T; cbn [List.length];
      rewrite ?Nat2Z.inj_succ, IH; lia.
Qed.

Lemma ones_zero n : ones n 0 = 0.
Proof.
  induction n as [|n IH]; [reflexivity|]. rewrite ones_half. cbn. rewrite IH. reflexivity.
Qed.

Lemma land_not1 v : Z.land v (Z.lnot 1) = 2 * (v / 2).
Proof.
  rewrite <- Z.ldiff_land. change 1 with (Z.ones 1). rewrite Z.ldiff_ones_r by lia.
  rewrite Z.shiftr_div_pow2, Z.shiftl_mul_pow2 by lia. change (2 ^ 1) with 2. lia.
Qed.

Lemma bitcount_loop_ok n v r : 0 <= v < 2 ^ Z.of_nat n -> 0 <= r < 2 ^ 64 ->
  bitcount_loop (S n) v r = Ok ((r + 2 * (v - ones n v)) mod 2 ^ 64).
Proof.
  revert v r; induction n as [|n IH]; intros v r B R.
  - cbn [bitcount_loop]. assert (v = 0) by (cbn in B; lia). subst v.
    cbn [Z.eqb]. rewrite ones_zero. cbn [Z.sub Z.mul Z.add]. rewrite Z.add_0_r, Z.mod_small by lia. reflexivity.
  - cbn [bitcount_loop]. destruct (Z.eqb_spec v 0) as [->|N].
    { rewrite ones_zero. cbn [Z.sub Z.mul]. rewrite Z.add_0_r, Z.mod_small by lia. reflexivity. }
    rewrite Z.shiftr_div_pow2 by lia. change (2 ^ 1) with 2.
    change (bitcount_loop (S n) (v / 2) (sz (r + sz (Z.land v (Z.lnot 1)))) =
      Ok ((r + 2 * (v - ones (S n) v)) mod 2 ^ 64)).
    rewrite IH.
    + f_equal. rewrite ones_half, land_not1. unfold sz.
      rewrite Z.add_mod_idemp_r by lia. rewrite Z.add_mod_idemp_l by lia. f_equal.
      pose proof (Z.div_mod v 2). lia.
    + split; [apply Z.div_pos; lia|]. apply Z.div_lt_upper_bound; [lia|].
      rewrite Nat2Z.inj_succ, Z.pow_succ_r in B by lia. lia.
    + apply Z.mod_pos_bound. lia.
Qed.

Lemma bitcount_ok n v : 0 <= v < 2 ^ Z.of_nat n ->
  bitcount (S n) v = Ok ((2 * (v - ones n v)) mod 2 ^ 64).
Proof. intros B. apply bitcount_loop_ok; [exact B|lia]. Qed.

Lemma bitcount_negative fuel v : v < 0 -> bitcount fuel v = OutOfFuel.
Proof.
  unfold bitcount. generalize 0 at 2. revert v; induction fuel as [|fuel IH]; intros v r N; [reflexivity|].
  cbn [bitcount_loop]. destruct (Z.eqb_spec v 0); [lia|]. apply IH.
  rewrite Z.shiftr_div_pow2 by lia. apply Z.div_lt_upper_bound; lia.
Qed.

Lemma ones_bound n v : 0 <= ones n v <= Z.of_nat n.
Proof.
  unfold ones. split; [lia|]. apply Nat2Z.inj_le.
  assert (L : length (low_bits n v) = n) by (induction n; cbn; auto).
  rewrite <- L at 2. generalize (low_bits n v). intros l. induction l as [|b l IH]; cbn [filter List.length]; [lia|].
  destruct b; cbn [List.length]; lia.
Qed.

Lemma ones_more n m v : 0 <= v < 2 ^ Z.of_nat n -> ones (n + m) v = ones n v.
Proof.
  revert v; induction n as [|n IH]; intros v B.
  - assert (v = 0) by (cbn in B; lia). subst v. now rewrite !ones_zero.
  - cbn [Nat.add]. rewrite !ones_half. rewrite IH; [reflexivity|].
    split; [apply Z.div_pos; lia|]. apply Z.div_lt_upper_bound; [lia|].
    rewrite Nat2Z.inj_succ, Z.pow_succ_r in B by lia. lia.
Qed.

(** The candidates: 2v = 3p modulo 2^64. *)
Definition not_right (p : Z) : bool :=
  let a := 3 * p / 2 in
  let b := a + 2 ^ 63 in
  ((3 * p) mod 2 =? 1) ||
  (((a =? 0) || (a =? 3) || negb (ones 64 a =? p)) && negb (ones 64 b =? p)).
Lemma all_not_right : forallb not_right (zrange 0 65) = true.
Proof. vm_compute. reflexivity. Qed.

Lemma candidates p v : 0 <= p <= 64 -> ones 64 v = p ->
  2 * v = 3 * p \/ 2 * v = 3 * p + 2 ^ 64 -> v = 0 \/ v = 3.
Proof.
  intros B O V. pose proof (letters_ok not_right 0 65 all_not_right p ltac:(lia)) as H.
  unfold not_right in H. cbv zeta in H.
  apply orb_true_iff in H. destruct H as [H|H].
  { apply Z.eqb_eq in H. exfalso. pose proof (Z.div_mod (3 * p) 2). lia. }
  apply andb_true_iff in H. destruct H as [H1 H2].
  pose proof (Z.div_mod (3 * p) 2 ltac:(lia)) as D. pose proof (Z.mod_pos_bound (3 * p) 2 ltac:(lia)) as MB.
  destruct V as [V|V].
  - assert (A : 3 * p / 2 = v) by lia. rewrite A, O, Z.eqb_refl in H1. cbn [negb] in H1.
    rewrite orb_false_r in H1. apply orb_true_iff in H1. lia.
  - assert (A : 3 * p / 2 + 2 ^ 63 = v) by lia. rewrite A, O, Z.eqb_refl in H2. discriminate.
Qed.

Lemma twice_mod M v p : 0 <= v < 2 * M -> 0 <= p <= M -> (2 * (v - p)) mod (2 * M) = p ->
  2 * v = 3 * p \/ 2 * v = 3 * p + 2 * M \/ 2 * v = 3 * p - 2 * M.
Proof.
  intros V P E. pose proof (Z.div_mod (2 * (v - p)) (2 * M) ltac:(lia)) as D. rewrite E in D.
  remember (2 * (v - p) / (2 * M)) as q eqn:Q. clear Q E.
  assert (q = 0 \/ q = 1 \/ q = -1) as HQ by nia; destruct HQ as [HQ|[HQ|HQ]]; rewrite HQ in D; lia.
Qed.

Lemma bitcount_right n v : (n <= 64)%nat -> 0 <= v < 2 ^ Z.of_nat n ->
  bitcount (S n) v = Ok (ones n v) -> v = 0 \/ v = 3.
Proof.
  intros L B E0. rewrite bitcount_ok in E0 by auto.
  assert (E : (2 * (v - ones n v)) mod 2 ^ 64 = ones n v) by congruence. clear E0.
  pose proof (ones_bound n v) as O.
  assert (V : v < 2 ^ 64).
  { apply Z.lt_le_trans with (2 ^ Z.of_nat n); [lia|]. apply Z.pow_le_mono_r; lia. }
  assert (R : ones n v = ones 64 v).
  { rewrite <- (ones_more n (64 - n) v B). f_equal. lia. }
  rewrite R in *. remember (ones 64 v) as p eqn:Ep.
  apply (candidates p v); [lia|auto|].
  change (2 ^ 64) with (2 * 2 ^ 63) in E. apply twice_mod in E; lia.
Qed.

Lemma usual_nonneg T U t u : 0 < width T -> 0 < width U -> fits T t -> fits U u ->
  0 <= t -> 0 <= u ->
  0 < width (usual T U) /\ fits (usual T U) t /\ fits (usual T U) u.
Proof.
  intros HT HU Ft Fu Pt Pu.
  pose proof (promote_width T) as WT. pose proof (promote_width U) as WU.
  pose proof (fits_promote T t HT Ft) as PT. pose proof (fits_promote U u HU Fu) as PU.
  unfold usual. cbv zeta. generalize dependent (promote T). generalize dependent (promote U).
  clear Ft Fu. intros [su wu] WU PU [st wt] WT PT. cbn [signed width] in *.
  destruct st, su; cbn [Bool.eqb signed width] in *.
  - split; [lia|]. split; (eapply fits_wider; [|eassumption]); lia.
  - destruct (Z.leb_spec wt wu); cbn [width].
    + split; [lia|]. split; [|exact PU]. eapply fits_nonneg_unsigned; [lia| |exact PT]. lia.
    + split; [lia|]. split; [exact PT|]. eapply fits_unsigned_to_signed; [|exact PU]. lia.
  - destruct (Z.leb_spec wu wt); cbn [width].
    + split; [lia|]. split; [exact PT|]. eapply fits_nonneg_unsigned; [lia| |exact PU]. lia.
    + split; [lia|]. split; [|exact PU]. eapply fits_unsigned_to_signed; [|exact PT]. lia.
  - split; [lia|]. split; (eapply fits_wider; [|eassumption]); lia.
Qed.

Lemma c_le_nonneg T U t u : 0 < width T -> 0 < width U -> fits T t -> fits U u ->
  0 <= t -> 0 <= u -> c_le T U t u = (t <=? u).
Proof.
  intros. destruct (usual_nonneg T U t u) as (W & Ft & Fu); auto.
  unfold c_le. rewrite !conv_id; auto.
Qed.
Lemma c_le_same T U t u : signed T = signed U -> 0 < width T -> 0 < width U ->
  fits T t -> fits U u -> c_le T U t u = (t <=? u).
Proof.
  intros. destruct (usual_ok T U t u) as (W & Ft & Fu); auto.
  unfold c_le. rewrite !conv_id; auto.
Qed.
Lemma c_lt_same T U t u : signed T = signed U -> 0 < width T -> 0 < width U ->
  fits T t -> fits U u -> c_lt T U t u = (t <? u).
Proof.
  intros. destruct (usual_ok T U t u) as (W & Ft & Fu); auto.
  unfold c_lt. rewrite !conv_id; auto.
Qed.

Lemma limits_sign D : 0 < width D -> lowest D <= 0 <= highest D.
Proof.
  intros W. unfold lowest, highest. pose proof (pow_pos (width D - 1)). pose proof (pow_pos (width D)).
  destruct (signed D); lia.
Qed.

Lemma can_fit_ok D S v : 0 < width D -> 0 < width S -> fits S v ->
  can_fit D S v = true <-> fits D v.
Proof.
  intros HD HS F. unfold can_fit. destruct (limits_fit D HD) as [FL FH].
  pose proof (limits_sign D HD) as LS.
  assert (F0 : fits i32 0) by (unfold fits, lowest, highest; cbn; lia).
  assert (W0 : 0 < width i32) by (cbn; lia).
  destruct (Z.leb_spec 0 v).
  - rewrite (c_le_nonneg i32 S 0 v) by (auto; lia).
    destruct (Z.leb_spec 0 v); [|lia].
    rewrite (c_le_nonneg S D v (highest D)) by (auto; lia). unfold fits. rewrite Z.leb_le. lia.
  - destruct (signed S) eqn:SS.
    2:{ unfold fits, lowest in F. rewrite SS in F. lia. }
    rewrite (c_le_same i32 S 0 v) by auto.
    destruct (Z.leb_spec 0 v); [lia|].
    destruct (signed D) eqn:SD.
    + rewrite (c_le_same D S (lowest D) v) by (auto; congruence). unfold fits. rewrite Z.leb_le. lia.
    + unfold fits, lowest. rewrite SD. split; [discriminate|lia].
Qed.

Lemma narrow_cast_ok D S v : 0 < width D -> 0 < width S -> fits S v ->
  (fits D v -> narrow_cast D S v = Ok v) /\ (~ fits D v -> narrow_cast D S v = Throw).
Proof.
  intros HD HS F. unfold narrow_cast. pose proof (in_range_ok D S v HD HS F) as E.
  destruct (in_range D S v).
  - split; [|tauto]. intros Fd. now rewrite conv_id.
  - split; [|reflexivity]. intros Fd. apply E in Fd. discriminate.
Qed.

Lemma in_range3_ok V L U v lo hi : signed V = signed L -> signed V = signed U ->
  0 < width V -> 0 < width L -> 0 < width U -> fits V v -> fits L lo -> fits U hi ->
  (in_range3 V L U v lo hi = true <-> lo <= v < hi).
Proof.
  intros. unfold in_range3. rewrite (c_le_same L V lo v), (c_lt_same V U v hi) by auto.
  rewrite andb_true_iff. lia.
Qed.

Lemma or_all_bits vs i : 0 <= i -> Z.testbit (or_all vs) i = existsb (fun v => Z.testbit v i) vs.
Proof.
  intros Pi. induction vs as [|v vs IH]; [apply Z.bits_0|].
  destruct vs as [|w vs]; [cbn; now rewrite orb_false_r|].
  change (or_all (v :: w :: vs)) with (Z.lor v (or_all (w :: vs))).
  rewrite Z.lor_spec, IH. reflexivity.
Qed.

(** ** value_from_chars *)

Lemma lor_disjoint a b k : 0 <= k -> a mod 2 ^ k = 0 -> 0 <= b < 2 ^ k -> Z.lor a b = a + b.
Proof.
  intros Pk Ma Bb. symmetry. rewrite <- Z.lxor_lor; [apply Z.add_nocarry_lxor|].
  - apply Z.bits_inj'. intros i Pi. rewrite Z.land_spec, Z.bits_0.
    destruct (Z.lt_ge_cases i k).
    + assert (Z.testbit a i = false) as ->; [|reflexivity].
      rewrite <- (Z.mod_pow2_bits_low a k) by lia. rewrite Ma. apply Z.bits_0.
    + assert (Z.testbit b i = false) as ->; [|apply andb_false_r].
      rewrite <- (Z.mod_small b (2 ^ k)) by lia. apply Z.mod_pow2_bits_high. lia.
  - apply Z.bits_inj'. intros i Pi. rewrite Z.land_spec, Z.bits_0.
    destruct (Z.lt_ge_cases i k).
    + assert (Z.testbit a i = false) as ->; [|reflexivity].
      rewrite <- (Z.mod_pow2_bits_low a k) by lia. rewrite Ma. apply Z.bits_0.
    + assert (Z.testbit b i = false) as ->; [|apply andb_false_r].
      rewrite <- (Z.mod_small b (2 ^ k)) by lia. apply Z.mod_pow2_bits_high. lia.
Qed.

Lemma uconv w z : 0 <= z < 2 ^ w -> conv {| signed := false; width := w |} z = z.
Proof. intros B. unfold conv. cbn [signed width]. apply wrap_id. exact B. Qed.

Definition isbyte (b : Z) := 0 <= b < 256.

Lemma shl_byte b k w : isbyte b -> 0 <= k -> k + 8 <= w ->
  conv {| signed := false; width := w |} (Z.shiftl b k) = b * 2 ^ k /\ 0 <= b * 2 ^ k < 2 ^ (k + 8).
Proof.
  intros B K W. rewrite Z.shiftl_mul_pow2 by lia.
  assert (R : 0 <= b * 2 ^ k < 2 ^ (k + 8)).
  { rewrite Z.pow_add_r by lia. change (2 ^ 8) with 256. unfold isbyte in B. pose proof (pow_pos k). nia. }
  split; [|exact R]. apply uconv. split; [lia|].
  apply Z.lt_le_trans with (2 ^ (k + 8)); [lia|]. apply Z.pow_le_mono_r; lia.
Qed.

(** One step: the bytes collected so far, then the next one [k] bits up. *)
Lemma or_byte a b k : 0 <= k -> isbyte b -> Z.lor (a * 2 ^ (k + 8)) (b * 2 ^ k) = (256 * a + b) * 2 ^ k.
Proof.
  intros K B. rewrite (lor_disjoint _ _ (k + 8)).
  - rewrite Z.pow_add_r by lia. change (2 ^ 8) with 256. lia.
  - lia.
  - apply Z.mod_mul. pose proof (pow_pos (k + 8)). lia.
  - rewrite Z.pow_add_r by lia. change (2 ^ 8) with 256. unfold isbyte in B. pose proof (pow_pos k). nia.
Qed.

Lemma or_byte0 a b : isbyte b -> Z.lor (a * 2 ^ 8) b = 256 * a + b.
Proof. intros B. pose proof (or_byte a b 0 ltac:(lia) B) as E. cbn [Z.add] in E. change (2 ^ 0) with 1 in E. rewrite !Z.mul_1_r in E. exact E. Qed.

Lemma value_from_chars8_ok m : (1 <= length m)%nat -> value_from_chars8 m = Ok (big_endian (firstn 1 m)).
Proof. destruct m as [|a m]; cbn; intros L; [lia|reflexivity]. Qed.

Lemma value_from_chars16_ok m : (2 <= length m)%nat -> Forall isbyte m ->
  value_from_chars16 m = Ok (big_endian (firstn 2 m)).
Proof.
  destruct m as [|a [|b m]]; cbn [List.length]; intros L F; try lia.
  inversion F as [|? ? Ba F1]; subst. inversion F1 as [|? ? Bb F2]; subst.
  unfold value_from_chars16, rd. cbn [nth_error bind firstn]. unfold big_endian. cbn [fold_left].
  unfold u16.
  rewrite (proj1 (shl_byte a 8 16 Ba ltac:(lia) ltac:(lia))). rewrite or_byte0 by auto.
  f_equal. rewrite uconv; [lia|]. unfold isbyte in *. lia.
Qed.

Lemma value_from_chars32_ok m : (4 <= length m)%nat -> Forall isbyte m ->
  value_from_chars32 m = Ok (big_endian (firstn 4 m)).
Proof.
  destruct m as [|a [|b [|c [|d m]]]]; cbn [List.length]; intros L F; try lia.
  inversion F as [|? ? Ba F1]; subst. inversion F1 as [|? ? Bb F2]; subst.
  inversion F2 as [|? ? Bc F3]; subst. inversion F3 as [|? ? Bd F4]; subst.
  unfold value_from_chars32, rd. cbn [nth_error bind firstn]. unfold big_endian. cbn [fold_left]. cbv zeta.
  unfold u32.
  rewrite (proj1 (shl_byte a 24 32 Ba ltac:(lia) ltac:(lia))),
    (proj1 (shl_byte b 16 32 Bb ltac:(lia) ltac:(lia))), (proj1 (shl_byte c 8 32 Bc ltac:(lia) ltac:(lia))).
  rewrite (uconv 32 d) by (unfold isbyte in *; lia).
  change 24 with (16 + 8). rewrite or_byte by (auto; lia). change 16 with (8 + 8). rewrite or_byte by (auto; lia).
  rewrite or_byte0 by auto. f_equal; lia.
Qed.

Lemma value_from_chars64_ok m : (8 <= length m)%nat -> Forall isbyte m ->
  value_from_chars64 m = Ok (big_endian (firstn 8 m)).
Proof.
  destruct m as [|a [|b [|c [|d [|e [|f [|g [|h m]]]]]]]]; cbn [List.length]; intros L F; try lia.
  inversion F as [|? ? Ba F1]; subst. inversion F1 as [|? ? Bb F2]; subst.
  inversion F2 as [|? ? Bc F3]; subst. inversion F3 as [|? ? Bd F4]; subst.
  inversion F4 as [|? ? Be F5]; subst. inversion F5 as [|? ? Bf F6]; subst.
  inversion F6 as [|? ? Bg F7]; subst. inversion F7 as [|? ? Bh F8]; subst.
  unfold value_from_chars64, rd. cbn [nth_error bind firstn]. unfold big_endian. cbn [fold_left]. cbv zeta.
  unfold u64.
  assert (U : forall x, isbyte x -> conv {| signed := false; width := 64 |} x = x).
  { intros x B. apply uconv. unfold isbyte in B. lia. }
  rewrite (U a), (U b), (U c), (U d), (U e), (U f), (U g), (U h) by assumption.
  rewrite (proj1 (shl_byte a 56 64 Ba ltac:(lia) ltac:(lia))), (proj1 (shl_byte b 48 64 Bb ltac:(lia) ltac:(lia))),
    (proj1 (shl_byte c 40 64 Bc ltac:(lia) ltac:(lia))), (proj1 (shl_byte d 32 64 Bd ltac:(lia) ltac:(lia))),
    (proj1 (shl_byte e 24 64 Be ltac:(lia) ltac:(lia))), (proj1 (shl_byte f 16 64 Bf ltac:(lia) ltac:(lia))),
    (proj1 (shl_byte g 8 64 Bg ltac:(lia) ltac:(lia))).
  change 56 with (48 + 8). rewrite or_byte by (auto; lia).
  change 48 with (40 + 8). rewrite or_byte by (auto; lia).
  change 40 with (32 + 8). rewrite or_byte by (auto; lia).
  change 32 with (24 + 8). rewrite or_byte by (auto; lia).
  change 24 with (16 + 8). rewrite or_byte by (auto; lia).
  change 16 with (8 + 8). rewrite or_byte by (auto; lia).
  rewrite or_byte0 by auto. f_equal; lia.
Qed.

Close Scope Z_scope.

(** ** Packs *)

Section Packs.
  Context {A : Type} (eqb : A -> A -> bool) (eqb_ok : forall x y, eqb x y = true <-> x = y).

  Lemma pack_index_loop_ok t ts pos r :
    (~ In t ts /\ pack_index_loop eqb t ts pos r = r) \/
    (exists k, pack_index_loop eqb t ts pos r = pos + k /\ nth_error ts k = Some t /\
       forall j, k < j -> nth_error ts j <> Some t).
  Proof.
    revert pos r; induction ts as [|u ts IH]; intros pos r; cbn [pack_index_loop]; [left; auto|].
    destruct (IH (S pos) (if eqb u t then pos else r)) as [(N & E)|(k & E & K & Lst)].
    - rewrite E. destruct (eqb u t) eqn:Q.
      + apply eqb_ok in Q. subst u. right. exists 0. split; [lia|]. split; [reflexivity|].
        intros [|j] L; [lia|]. cbn [nth_error]. intros C. apply N. eapply nth_error_In; eauto.
      + left. split; [|reflexivity]. intros [C|C]; [|auto]. subst u.
        assert (eqb t t = true) by (apply eqb_ok; auto). congruence.
    - right. exists (S k). split; [lia|]. split; [exact K|].
      intros [|j] L; [lia|]. apply Lst. lia.
  Qed.

  Lemma pack_index_of_ok t ts :
    (~ In t ts -> pack_index_of eqb t ts = length ts) /\
    (In t ts -> nth_error ts (pack_index_of eqb t ts) = Some t /\
       forall j, pack_index_of eqb t ts < j -> nth_error ts j <> Some t).
  Proof.
    unfold pack_index_of. destruct (pack_index_loop_ok t ts 0 (length ts)) as [(N & E)|(k & E & K & Lst)].
    - split; [auto|tauto].
    - rewrite E. cbn [Nat.add]. split; [|auto]. intros N. exfalso. apply N. eapply nth_error_In; eauto.
  Qed.

  Lemma pack_index_of_nodup t ts k : NoDup ts -> nth_error ts k = Some t -> pack_index_of eqb t ts = k.
  Proof.
    intros ND K. destruct (pack_index_of_ok t ts) as [_ H].
    destruct H as [E _]; [eapply nth_error_In; eauto|].
    apply (proj1 (NoDup_nth_error ts) ND); [|congruence]. apply nth_error_Some. congruence.
  Qed.

  Lemma pack_get_from_ok N pos (args : list A) x : pos <= N -> nth_error args (N - pos) = Some x ->
    pack_get_from N pos args = Ok x.
  Proof.
    revert pos; induction args as [|a args IH]; intros pos L E; [destruct (N - pos); discriminate|].
    cbn [pack_get_from]. destruct (Nat.eqb_spec pos N) as [->|Ne].
    - rewrite Nat.sub_diag in E. cbn in E. congruence.
    - apply IH; [lia|]. replace (N - pos) with (S (N - S pos)) in E by lia. exact E.
  Qed.
  Lemma pack_get_ok N (args : list A) x : nth_error args N = Some x -> pack_get N args = Ok x.
  Proof. intros E. apply pack_get_from_ok; [lia|]. now rewrite Nat.sub_0_r. Qed.

  Lemma pack_apply_ok N ok (args : list A) :
    pack_apply N ok args =
    Ok (match nth_error args N with
        | Some x => if ok x then [x] else []
        | None => []
        end).
  Proof.
    unfold pack_apply.
    assert (H : forall k pos, pos + k = length args -> pos <= N ->
      pack_apply_from k pos N ok args =
      Ok (match nth_error args N with Some x => if ok x then [x] else [] | None => [] end)).
    { induction k as [|k IH]; intros pos L P; cbn [pack_apply_from].
      - assert (E : nth_error args N = None) by (apply nth_error_None; lia). now rewrite E.
      - destruct (Nat.eqb_spec N pos) as [->|Ne].
        + destruct (nth_error args pos) as [x|] eqn:E; [|apply nth_error_None in E; lia].
          rewrite (pack_get_ok pos args x E). reflexivity.
        + apply IH; lia. }
    apply H; lia.
  Qed.

  Lemma one_of_ok v args : one_of eqb v args = true <-> In v args.
  Proof.
    unfold one_of. induction args as [|a args IH]; cbn [fold_right In].
    - split; [discriminate|tauto].
    - rewrite orb_true_iff, IH, eqb_ok. intuition.
  Qed.
  Lemma none_of_ok v args : none_of eqb v args = true <-> ~ In v args.
  Proof.
    unfold none_of. induction args as [|a args IH]; cbn [fold_right In].
    - tauto.
    - rewrite andb_true_iff, IH, negb_true_iff. pose proof (eqb_ok v a) as Q. split.
      + intros [E N] [C|C]; [|auto]. subst a. assert (eqb v v = true) by (apply Q; auto). congruence.
      + intros N. split; [|tauto]. destruct (eqb v a); [|reflexivity]. exfalso. apply N. left. symmetry. apply Q. auto.
  Qed.

  Lemma copy_vector_ok (c : list A) n :
    (n <= length c -> exists rest, copy_vector c n = Ok (firstn n c) /\ c = firstn n c ++ rest /\ length (firstn n c) = n) /\
    (length c < n -> copy_vector c n = Throw).
  Proof.
    unfold copy_vector. destruct (Nat.leb_spec n (length c)); split; intros; try lia; try reflexivity.
    exists (skipn n c). rewrite firstn_skipn. split; [reflexivity|]. split; [reflexivity|]. now apply firstn_length_le.
  Qed.

  Lemma find_pos_ok (l : list A) x :
    (~ In x l /\ find_pos eqb l x = length l) \/
    (nth_error l (find_pos eqb l x) = Some x /\ forall j, j < find_pos eqb l x -> nth_error l j <> Some x).
  Proof.
    induction l as [|y l IH]; cbn [find_pos]; [left; auto|].
    destruct (eqb y x) eqn:E.
    - apply eqb_ok in E. subst y. right. split; [reflexivity|]. intros; lia.
    - assert (N : y <> x) by (intros ->; assert (eqb x x = true) by (apply eqb_ok; auto); congruence).
      destruct IH as [(NI & L)|(K & F)].
      + left. split; [intros [C|C]; auto|]. rewrite L. reflexivity.
      + right. split; [exact K|]. intros [|j] Lj; cbn [nth_error]; [congruence|]. apply F. lia.
  Qed.

  Lemma contains_ok (l : list A) x : contains eqb l x = true <-> In x l.
  Proof.
    unfold contains. rewrite negb_true_iff, Nat.eqb_neq.
    destruct (find_pos_ok l x) as [(N & E)|(K & _)].
    - split; [tauto|contradiction].
    - split; [intros _; eapply nth_error_In; eauto|].
      intros _. assert (find_pos eqb l x < length l) by (apply nth_error_Some; congruence). lia.
  Qed.
  Lemma index_of_ok (l : list A) x :
    (~ In x l -> index_of eqb l x = length l) /\
    (In x l -> nth_error l (index_of eqb l x) = Some x /\
       forall j, j < index_of eqb l x -> nth_error l j <> Some x).
  Proof.
    unfold index_of. destruct (find_pos_ok l x) as [(N & E)|(K & F)]; split; try tauto.
    intros C. exfalso. apply C. eapply nth_error_In; eauto.
  Qed.

  (** equal_to_last *)
  Lemma el_run_ok m last (os : list (@el_op A)) w :
    keeps_last m last os ->
    (match last with None => w = None | Some p => exists x, nth_error m p = Some (Some x) /\ w = Some x end) ->
    el_run eqb m last os = Ok (same_as_previous eqb w (arguments m os)).
  Proof.
    revert m last w; induction os as [|[a x|a|a] os IH]; intros m last w K L; cbn [el_run arguments keeps_last] in *.
    - reflexivity.
    - destruct K as (La & Na & K). unfold wr. destruct (Nat.ltb_spec a (length m)); [|lia]. cbn [bind].
      apply IH; auto. destruct last as [p|]; [|exact L]. destruct L as (y & E & ->). exists y. split; [|reflexivity].
      rewrite nth_error_upd_ne; auto; congruence.
    - destruct K as (La & Na & K). unfold wr. destruct (Nat.ltb_spec a (length m)); [|lia]. cbn [bind].
      apply IH; auto. destruct last as [p|]; [|exact L]. destruct L as (y & E & ->). exists y. split; [|reflexivity].
      rewrite nth_error_upd_ne; auto; congruence.
    - destruct K as ((x & E) & K). unfold el_call, look. rewrite E. cbn [bind same_as_previous].
      destruct last as [p|].
      + destruct L as (y & Ey & ->). rewrite Ey. cbn [bind].
        rewrite (IH m (Some a) (Some x)); [reflexivity|exact K|]. exists x; auto.
      + subst w. cbn [bind]. rewrite (IH m (Some a) (Some x)); [reflexivity|exact K|]. exists x; auto.
  Qed.
End Packs.

(** ** string_concat *)

Lemma append_all_ok {A} order (arg : list A) strings :
  Forall (fun k => k < List.length strings) order ->
  append_all order arg strings = Ok (arg ++ List.concat (map (fun k => nth k strings []) order)).
Proof.
  intros F. revert arg; induction F as [|k order L F IH]; intros arg; cbn [append_all map List.concat].
  - now rewrite app_nil_r.
  - unfold rd. rewrite (nth_error_nth' strings [] L). cbn [bind]. rewrite IH, app_assoc. reflexivity.
Qed.

Lemma map_nth_seq {A} (l : list A) d : map (fun k => nth k l d) (seq 0 (List.length l)) = l.
Proof.
  assert (G : forall n pre, map (fun k => nth k (pre ++ l) d) (seq (List.length pre) n) = firstn n l -> True) by auto.
  clear G. assert (H : forall pre l : list A, map (fun k => nth k (pre ++ l) d) (seq (List.length pre) (List.length l)) = l).
  { intros pre l0. revert pre. induction l0 as [|x l0 IH]; intros pre; cbn [List.length seq map]; [reflexivity|].
    rewrite app_nth2, Nat.sub_diag by lia. cbn [nth]. f_equal.
    specialize (IH (pre ++ [x])). rewrite <- app_assoc, app_length in IH. cbn [app List.length] in IH.
    replace (List.length pre + 1) with (S (List.length pre)) in IH by lia. exact IH. }
  apply (H []).
Qed.

Lemma string_concat_any {A} order (arg : list A) strings :
  Permutation order (seq 0 (List.length strings)) ->
  exists ps, Permutation ps strings /\ string_concat order arg strings = Ok (arg ++ List.concat ps).
Proof.
  intros P. exists (map (fun k => nth k strings []) order). split.
  - rewrite (Permutation_map _ P). rewrite map_nth_seq. reflexivity.
  - apply append_all_ok. apply Forall_forall. intros k I.
    apply (Permutation_in _ P) in I. apply in_seq in I. lia.
Qed.

Lemma string_concat_in_order {A} (arg : list A) strings :
  string_concat (seq 0 (List.length strings)) arg strings = Ok (arg ++ List.concat strings).
Proof.
  unfold string_concat. rewrite append_all_ok.
  - now rewrite map_nth_seq.
  - apply Forall_forall. intros k I. apply in_seq in I. lia.
Qed.

(** ** string_join_iterator *)

Section Join.
  Context {A : Type} (nul : A).

  (** At offset [k] of string [s], what is still to come. *)
  Lemma collect_ok fuel (ss : list (list A)) s k n cur :
    Forall (fun l => l <> []) ss -> nth_error ss s = Some cur -> k < length cur ->
    length (skipn k cur ++ List.concat (skipn (S s) ss)) < fuel ->
    join_collect nul fuel (Join ss (Some (s, k)) s) (join_end n) =
    Ok (skipn k cur ++ List.concat (skipn (S s) ss)).
  Proof.
    revert s k cur; induction fuel as [|fuel IH]; intros s k cur NE E L F; [lia|].
    cbn [join_collect]. cbn [join_eq join_end j_first]. unfold join_deref. cbn [j_first j_strings].
    unfold rd at 1. rewrite E. cbn [bind].
    destruct (nth_error cur k) as [x|] eqn:X; [|apply nth_error_None in X; lia].
    unfold rd. rewrite nth_error_app1, X by lia. cbn [bind].
    unfold join_next. cbn [j_first j_strings j_idx]. unfold rd. rewrite E. cbn [bind].
    destruct (Nat.ltb_spec (length cur) k); [lia|]. rewrite Nat.eqb_refl. cbn [andb].
    assert (K : skipn k cur = x :: skipn (S k) cur).
    { clear -X. revert k X; induction cur as [|y cur IH]; intros [|k] X; try discriminate.
      - injection X as ->. reflexivity.
      - cbn [skipn]. rewrite IH by auto. reflexivity. }
    rewrite K in *. cbn [app List.length] in *.
    destruct (Nat.eqb_spec (S k) (length cur)) as [Ek|Ek]; cbn [negb].
    - assert (Z0 : skipn (S k) cur = []) by (apply skipn_all2; lia). rewrite Z0 in *. cbn [app] in *.
      unfold j_empty. cbn [j_strings j_idx]. destruct (Nat.leb_spec (length ss) (S s)) as [Le|Gt].
      + cbn [bind]. rewrite (skipn_all2 ss) by lia. cbn [List.concat].
        destruct fuel as [|fuel]; [lia|]. reflexivity.
      + destruct (nth_error ss (S s)) as [nx|] eqn:NX; [|apply nth_error_None in NX; lia].
        assert (NN : nx <> []).
        { rewrite Forall_forall in NE. apply NE. eapply nth_error_In; eauto. }
        assert (KS : skipn (S s) ss = nx :: skipn (S (S s)) ss).
        { clear -NX. revert NX. generalize (S s). intros m. revert m. induction ss as [|y ss IH]; intros [|m] X; try discriminate.
          - injection X as ->. reflexivity.
          - cbn [skipn]. cbn [nth_error] in X. rewrite IH by auto. reflexivity. }
        rewrite KS in *. cbn [List.concat] in *. cbn [bind].
        rewrite (IH (S s) 0 nx).
        * reflexivity.
        * exact NE.
        * exact NX.
        * destruct nx; [congruence|cbn; lia].
        * change (skipn 0 nx) with nx. lia.
    - cbn [bind]. rewrite (IH s (S k) cur); [reflexivity|auto|auto|lia|lia].
  Qed.

  Lemma join_collect_ok (ss : list (list A)) n : ss <> [] -> Forall (fun l => l <> []) ss ->
    join_collect nul (S (length (List.concat ss))) (join_begin ss) (join_end n) = Ok (List.concat ss).
  Proof.
    intros N NE. unfold join_begin. destruct ss as [|s ss]; [congruence|].
    rewrite (collect_ok _ (s :: ss) 0 0 n s NE eq_refl).
    - reflexivity.
    - inversion NE; subst. destruct s; [congruence|cbn; lia].
    - cbn [skipn List.concat]. lia.
  Qed.

  (** An empty string on the way. *)
  Lemma collect_empty fuel (ss : list (list A)) s k n cur pre post :
    ss = pre ++ [] :: post -> Forall (fun l => l <> []) pre -> s < length pre ->
    nth_error ss s = Some cur -> k < length cur ->
    length (skipn k cur ++ List.concat (skipn (S s) pre)) + 2 <= fuel ->
    join_collect nul fuel (Join ss (Some (s, k)) s) (join_end n) = UB.
  Proof.
    intros Ess NE. revert s k cur; induction fuel as [|fuel IH]; intros s k cur Ls E L F; [lia|].
    cbn [join_collect]. cbn [join_eq join_end j_first]. unfold join_deref. cbn [j_first j_strings].
    unfold rd at 1. rewrite E. cbn [bind].
    destruct (nth_error cur k) as [x|] eqn:X; [|apply nth_error_None in X; lia].
    unfold rd. rewrite nth_error_app1, X by lia. cbn [bind].
    unfold join_next. cbn [j_first j_strings j_idx]. unfold rd. rewrite E. cbn [bind].
    destruct (Nat.ltb_spec (length cur) k); [lia|]. rewrite Nat.eqb_refl. cbn [andb].
    assert (K : skipn k cur = x :: skipn (S k) cur).
    { clear -X. revert k X; induction cur as [|y cur IH]; intros [|k] X; try discriminate.
      - injection X as ->. reflexivity.
      - cbn [skipn]. rewrite IH by auto. reflexivity. }
    rewrite K in *. cbn [app List.length] in *.
    destruct (Nat.eqb_spec (S k) (length cur)) as [Ek|Ek]; cbn [negb].
    - assert (Z0 : skipn (S k) cur = []) by (apply skipn_all2; lia). rewrite Z0 in *. cbn [app] in *.
      unfold j_empty. cbn [j_strings j_idx].
      assert (Ll : length ss = length pre + S (length post)) by (rewrite Ess, app_length; reflexivity).
      destruct (Nat.leb_spec (length ss) (S s)) as [Le|Gt]; [lia|]. cbn [bind].
      destruct (Nat.eq_dec (S s) (length pre)) as [El|Nl].
      + (* the empty string comes next *)
        assert (NX : nth_error ss (S s) = Some []).
        { rewrite Ess, El, nth_error_app2, Nat.sub_diag by lia. reflexivity. }
        destruct fuel as [|[|fuel]]; [lia|lia|].
        cbn [join_collect join_eq join_end j_first]. unfold join_deref at 1. cbn [j_first j_strings]. unfold rd at 1 2.
        rewrite NX. cbn [app nth_error bind]. unfold join_next at 1. cbn [j_first j_strings j_idx].
        unfold rd at 1. rewrite NX. cbn [bind length]. cbn [Nat.ltb Nat.leb]. unfold rd at 1. rewrite NX. cbn [bind length].
        rewrite Nat.eqb_refl. cbn [Nat.eqb andb negb bind join_eq j_first].
        unfold join_deref at 1. cbn [j_first j_strings]. unfold rd at 1. rewrite NX. reflexivity.
      + destruct (nth_error pre (S s)) as [nx|] eqn:NP; [|apply nth_error_None in NP; lia].
        assert (NX : nth_error ss (S s) = Some nx) by (rewrite Ess, nth_error_app1 by lia; exact NP).
        assert (NN : nx <> []).
        { rewrite Forall_forall in NE. apply NE. eapply nth_error_In; eauto. }
        assert (KS : skipn (S s) pre = nx :: skipn (S (S s)) pre).
        { clear -NP. revert NP. generalize (S s). intros m. revert m. induction pre as [|y pre IH]; intros [|m] X; try discriminate.
          - injection X as ->. reflexivity.
          - cbn [skipn]. cbn [nth_error] in X. rewrite IH by auto. reflexivity. }
        rewrite KS in *. cbn [List.concat] in *.
        rewrite (IH (S s) 0 nx).
        * reflexivity.
        * lia.
        * exact NX.
        * destruct nx; [congruence|cbn; lia].
        * change (skipn 0 nx) with nx. lia.
    - cbn [bind]. rewrite (IH s (S k) cur); [reflexivity|auto|auto|lia|lia].
  Qed.

  Lemma join_collect_empty (pre post : list (list A)) n fuel : Forall (fun l => l <> []) pre ->
    length (List.concat pre) + 2 <= fuel ->
    join_collect nul fuel (join_begin (pre ++ [] :: post)) (join_end n) = UB.
  Proof.
    intros NE F. unfold join_begin. destruct pre as [|s pre].
    - cbn [app List.concat] in *. destruct fuel as [|[|fuel]]; [cbn [List.length] in F; lia|cbn [List.length] in F; lia|]. reflexivity.
    - cbn [List.concat] in F.
      apply (collect_empty _ _ 0 0 n s (s :: pre) post); auto; try reflexivity.
      + cbn; lia.
      + inversion NE; subst. destruct s; [congruence|cbn; lia].
  Qed.

  Lemma join_next_strings (i i' : join A) : join_next i = Ok i' -> j_strings i' = j_strings i.
  Proof.
    unfold join_next. destruct (j_first i) as [[s k]|]; [|discriminate].
    destruct (rd (j_strings i) s); [|discriminate..]. cbn [bind]. destruct (_ <? _); [discriminate|].
    destruct (rd (j_strings i) (j_idx i)); [|discriminate..]. cbn [bind].
    destruct (negb _); [intros E; injection E as <-; reflexivity|].
    destruct (j_empty _); intros E; injection E as <-; reflexivity.
  Qed.

  Lemma join_diff_any (ss : list (list A)) k i : join_advance k (join_begin ss) = Ok i ->
    join_diff (join_end (length ss)) i = Ok (length (List.concat ss)).
  Proof.
    intros E. assert (Ei : j_strings i = ss).
    { change ss with (j_strings (join_begin ss)). revert E. generalize (join_begin ss). intros j.
      revert j; induction k as [|k IH]; intros j E; cbn [join_advance] in E; [congruence|].
      destruct (join_next j) eqn:N; [|discriminate..]. cbn [bind] in E. apply IH in E.
      rewrite E. apply join_next_strings. exact N. }
    unfold join_diff, join_end, j_empty. cbn [j_strings j_idx]. rewrite repeat_length, Nat.leb_refl, Ei.
    f_equal. clear. induction ss as [|a ss IH]; [reflexivity|].
    change (list_sum (map (@length A) (a :: ss))) with (length a + list_sum (map (@length A) ss)).
    cbn [List.concat]. rewrite app_length. lia.
  Qed.
End Join.

Section JoinEq.
  Context {A : Type}.

  (** The iterator after [j] increments. *)
  Definition join_at (ss : list (list A)) (j : nat) (i : join A) : Prop :=
    (exists s k cur, i = Join ss (Some (s, k)) s /\ nth_error ss s = Some cur /\ k < length cur /\
       j = length (List.concat (firstn s ss)) + k) \/
    (i = Join ss None (length ss) /\ j = length (List.concat ss)).

  Lemma concat_firstn_next (ss : list (list A)) s cur : nth_error ss s = Some cur ->
    List.concat (firstn (S s) ss) = List.concat (firstn s ss) ++ cur.
  Proof.
    revert s; induction ss as [|y ss IH]; intros [|s] E; try discriminate.
    - injection E as ->. cbn [firstn List.concat app]. now rewrite app_nil_r.
    - cbn [nth_error] in E. rewrite (firstn_cons (S s)), (firstn_cons s). cbn [List.concat].
      rewrite IH by auto. now rewrite app_assoc.
  Qed.

  Lemma join_at_next (ss : list (list A)) j i : Forall (fun l => l <> []) ss -> join_at ss j i ->
    j < length (List.concat ss) -> exists i', join_next i = Ok i' /\ join_at ss (S j) i'.
  Proof.
    intros NE [(s & k & cur & -> & E & L & ->)|[-> ->]] F; [|lia].
    unfold join_next. cbn [j_first j_strings j_idx]. unfold rd. rewrite E. cbn [bind].
    destruct (Nat.ltb_spec (length cur) k); [lia|]. rewrite Nat.eqb_refl. cbn [andb].
    destruct (Nat.eqb_spec (S k) (length cur)) as [Ek|Ek]; cbn [negb].
    - unfold j_empty. cbn [j_strings j_idx]. destruct (Nat.leb_spec (length ss) (S s)) as [Le|Gt].
      + eexists. split; [reflexivity|]. right.
        assert (Ls : s < length ss) by (apply nth_error_Some; congruence).
        assert (Es : S s = length ss) by lia. split; [now rewrite Es|].
        pose proof (concat_firstn_next ss s cur E) as C. rewrite Es, firstn_all in C. rewrite C, app_length. lia.
      + eexists. split; [reflexivity|]. left.
        destruct (nth_error ss (S s)) as [nx|] eqn:NX; [|apply nth_error_None in NX; lia].
        exists (S s), 0, nx. repeat split; [auto| |].
        * rewrite Forall_forall in NE. destruct nx; [|cbn; lia]. destruct (NE [] (nth_error_In _ _ NX) eq_refl).
        * rewrite (concat_firstn_next ss s cur E), app_length. lia.
    - eexists. split; [reflexivity|]. left. exists s, (S k), cur. repeat split; auto; lia.
  Qed.

  Lemma join_at_advance n (ss : list (list A)) j i : Forall (fun l => l <> []) ss -> join_at ss j i ->
    j + n <= length (List.concat ss) -> exists i', join_advance n i = Ok i' /\ join_at ss (j + n) i'.
  Proof.
    revert j i; induction n as [|n IH]; intros j i NE J F.
    - exists i. split; [reflexivity|]. now rewrite Nat.add_0_r.
    - cbn [join_advance]. destruct (join_at_next ss j i NE J) as (i' & -> & J'); [lia|]. cbn [bind].
      destruct (IH (S j) i' NE J') as (i2 & -> & J2); [lia|]. exists i2. split; [reflexivity|].
      now replace (j + S n) with (S j + n) by lia.
  Qed.

  Lemma join_begin_at (ss : list (list A)) : ss <> [] -> Forall (fun l => l <> []) ss -> join_at ss 0 (join_begin ss).
  Proof.
    intros N NE. left. destruct ss as [|s ss]; [congruence|]. exists 0, 0, s.
    inversion NE; subst. repeat split. destruct s; [congruence|cbn; lia].
  Qed.

  Lemma join_eq_ok (ss : list (list A)) j k : ss <> [] -> Forall (fun l => l <> []) ss ->
    j <= length (List.concat ss) -> k <= length (List.concat ss) ->
    exists a b, join_advance j (join_begin ss) = Ok a /\ join_advance k (join_begin ss) = Ok b /\
      join_eq a b = (j =? k).
  Proof.
    intros N NE J K. pose proof (join_begin_at ss N NE) as B.
    destruct (join_at_advance j ss 0 _ NE B J) as (a & Ea & Ha).
    destruct (join_at_advance k ss 0 _ NE B K) as (b & Eb & Hb).
    cbn [Nat.add] in Ha, Hb. exists a, b. refine (conj Ea (conj Eb _)).
    assert (Lt : forall s x cur, nth_error ss s = Some cur -> x < length cur ->
              length (List.concat (firstn s ss)) + x < length (List.concat ss)).
    { intros s x cur E L. pose proof (concat_firstn_next ss s cur E) as C.
      pose proof (firstn_skipn (S s) ss) as F. rewrite <- F at 2. rewrite concat_app, app_length, C, app_length. lia. }
    destruct Ha as [(s & x & cur & -> & E & L & Hj)|[-> Hj]], Hb as [(s' & x' & cur' & -> & E' & L' & Hk)|[-> Hk]];
      unfold join_eq; cbn [j_first].
    - destruct (Nat.eqb_spec j k) as [->|D].
      + assert (P : Join ss (Some (s, x)) s = Join ss (Some (s', x')) s') by congruence.
        injection P as -> ->. now rewrite !Nat.eqb_refl.
      + destruct (Nat.eqb_spec s s') as [->|]; [|reflexivity]. destruct (Nat.eqb_spec x x'); [lia|reflexivity].
    - symmetry. apply Nat.eqb_neq. specialize (Lt s x cur E L). lia.
    - symmetry. apply Nat.eqb_neq. specialize (Lt s' x' cur' E' L'). lia.
    - symmetry. apply Nat.eqb_eq. lia.
  Qed.

  (** The iterator reached last compares equal to the default one, the others do not. *)
  Lemma join_eq_end (ss : list (list A)) j n : ss <> [] -> Forall (fun l => l <> []) ss ->
    j <= length (List.concat ss) ->
    exists a, join_advance j (join_begin ss) = Ok a /\ join_eq a (join_end n) = (j =? length (List.concat ss)).
  Proof.
    intros N NE J. pose proof (join_begin_at ss N NE) as B.
    destruct (join_at_advance j ss 0 _ NE B J) as (a & Ea & Ha). exists a. refine (conj Ea _).
    cbn [Nat.add] in Ha. destruct Ha as [(s & x & cur & -> & E & L & Hj)|[-> Hj]]; unfold join_eq, join_end; cbn [j_first].
    - symmetry. apply Nat.eqb_neq. pose proof (concat_firstn_next ss s cur E) as C.
      pose proof (firstn_skipn (S s) ss) as F. assert (length (List.concat ss) = length (List.concat (firstn (S s) ss)) + length (List.concat (skipn (S s) ss))).
      { rewrite <- F at 1. now rewrite concat_app, app_length. }
      rewrite C, app_length in H. lia.
    - symmetry. apply Nat.eqb_eq. lia.
  Qed.
End JoinEq.

Lemma c211_bitcount_all_l :
  (forall n v vs, Forall (fun v => 0 <= v < 2 ^ Z.of_nat n) (v :: vs) ->
  bitcount_all (S n) v vs = Ok (fold_right (fun v s => 2 * (v - ones n v) + s) 0 (v :: vs) mod 2 ^ 64))%Z.
Proof.
  intros n v vs. revert v. induction vs as [|u vs IH]; intros v F; cbn [bitcount_all fold_right].
  - rewrite bitcount_ok by (exact (Forall_inv F)). do 2 f_equal. lia.
  - rewrite bitcount_ok by (exact (Forall_inv F)). cbn [bind]. rewrite IH by (exact (Forall_inv_tail F)). cbn [bind fold_right]. unfold sz, wrap.
    rewrite <- Z.add_mod by lia. reflexivity.
Qed.

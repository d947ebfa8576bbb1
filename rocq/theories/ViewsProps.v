(** The properties of the views, the span writer and keep_n (C169 to C178). *)
From Verif Require Import Common Ints Pipelines SpecPipes SpecAlg Iterators Views SpecViews ViewsProofs.
From Coq Require Import Lia Permutation.
Open Scope Z_scope.

(** ** C169: a span shows the elements it was made from *)
Theorem C169_constructed {A} (mem : list A) first n : 0 <= first -> 0 <= n -> first + n <= zlen mem -> fits_memory mem ->
  sp_covers mem (sp_make first n) (front_n n (skip_n first mem)) /\
  sp_between first (first + n) = Ok (sp_make first n) /\
  (forall last, 0 <= last <= first -> sp_between first last = Ok (sp_make first 0)).
Proof. exact (sp_constructed mem first n). Qed.
Theorem C169_loops {A} (mem : list A) s xs : fits_memory mem -> sp_covers mem s xs ->
  sp_size s = zlen xs /\ sp_empty s = (length xs =? 0)%nat /\
  (exists r, sp_range mem s = Ok r /\ visits r xs) /\
  (exists r, sp_rrange mem s = Ok r /\ visits r (rev xs)) /\
  (exists r, sp_crrange false mem s = Ok r /\ visits r (rev xs)).
Proof. exact (sp_reads mem s xs). Qed.
Theorem C169_elements {A} (mem : list A) s xs i : sp_covers mem s xs -> 0 <= i ->
  (forall x, nth_error xs (Z.to_nat i) = Some x -> sp_get mem s i = Ok x /\ sp_at mem s i = Ok x) /\
  (zlen xs <= i -> sp_at mem s i = Throw).
Proof. exact (sp_elements mem s xs i). Qed.
Theorem C169_ends {A} (mem : list A) s xs x y : fits_memory mem ->
  (sp_covers mem s (x :: xs) -> sp_front mem s = Ok x) /\ (sp_covers mem s (xs ++ [y]) -> sp_back mem s = Ok y).
Proof. exact (sp_ends mem s xs x y). Qed.
Theorem C169_crend_refuted {A} (mem : list A) s xs : sp_covers mem s xs ->
  exists r, sp_crrange true mem s = Ok r /\ visits r [].
Proof. exact (sp_const_crev mem s xs). Qed.
Print Assumptions C169_constructed.
Print Assumptions C169_loops.
Print Assumptions C169_elements.
Print Assumptions C169_ends.
Print Assumptions C169_crend_refuted.
Example C169_nontrivial :
  let mem := [1; 2; 3; 4; 5; 6] in let s := sp_make 2 3 in
  sp_covers mem s [3; 4; 5] /\ fits_memory mem /\ sp_get mem s 2 = Ok 5 /\ sp_at mem s 3 = Throw /\ sp_get mem s 3 = Ok 6 /\
  sp_back mem s = Ok 5 /\ sp_between 2 5 = Ok s /\ sp_between 5 2 = Ok (sp_make 5 0).
Proof. split; [exists [1; 2], [6]; auto|]. vm_compute. auto 8. Qed.

(** ** C170: shrinking a span *)
Theorem C170_history_partial {A} (eqb : A -> A -> bool) os (mem : list A) s xs ys outs :
  fits_memory mem -> sp_covers mem s xs -> effects eqb span_allows os xs = Some (ys, outs) ->
  exists mem' s', run_ops sp_step os mem s = Ok (mem', s', outs) /\ sp_covers mem' s' ys /\
    same_outside (sp_first s) (sp_first s + sp_size s) mem mem'.
Proof. exact (history eqb sp_step sp_covers sp_first _ span_allows (sp_good eqb) os mem s xs ys outs). Qed.
Theorem C170_subspan_past {A} (mem : list A) s xs pos count : sp_covers mem s xs -> zlen xs < pos -> sp_subspan mem s pos count = Throw.
Proof. exact (sp_sub_past mem s xs pos count). Qed.
Theorem C170_too_many_refuted {A} (mem : list A) s xs n : fits_memory mem -> sp_covers mem s xs -> zlen xs < n < 2 ^ 64 ->
  (sp_first s + n <= zlen mem ->
   exists r s', sp_pop_front_n mem s n = Ok (r, s') /\ sp_covers mem r xs /\ sp_size s' = 2 ^ 64 - (n - zlen xs)) /\
  (zlen mem < sp_first s + n -> sp_pop_front_n mem s n = UB) /\
  sp_pop_back_n mem s n = Throw /\
  sp_size (sp_remove_suffix s n) = 2 ^ 64 - (n - zlen xs).
Proof. exact (sp_too_many mem s xs n). Qed.
Print Assumptions C170_history_partial.
Print Assumptions C170_subspan_past.
Print Assumptions C170_too_many_refuted.
Example C170_nontrivial :
  let mem := [1; 2; 3; 4; 5; 6; 7; 8] in let s := sp_make 1 6 in
  let os := [PopFront; PopBackN 2; Store 1 9; Sub 1 100; TryPopBack; PopFrontN 1; TryPopBack] in
  sp_covers mem s [2; 3; 4; 5; 6; 7] /\ fits_memory mem /\
  effects Z.eqb span_allows os [2; 3; 4; 5; 6; 7] = Some ([], [[2]; [6; 7]; []; []; [5]; [9]; []]) /\
  (exists s', run_ops sp_step os mem s = Ok ([1; 2; 3; 9; 5; 6; 7; 8], s', [[2]; [6; 7]; []; []; [5]; [9]; []])) /\
  (exists r, sp_pop_front_n mem (sp_make 1 2) 4 = Ok (r, sp_make 5 (2 ^ 64 - 2))).
Proof.
  split; [exists [1], [8]; auto|]. split; [reflexivity|]. split; [vm_compute; reflexivity|]. split; eexists; vm_compute; reflexivity.
Qed.

(** ** C171: a contiguous_view *)
Theorem C171_constructed {A} (mem : list A) first n : 0 <= first -> 0 <= n -> first + n <= zlen mem ->
  cv_make mem first n = Ok (cv_between first (first + n)) /\
  cv_covers mem (cv_between first (first + n)) (front_n n (skip_n first mem)).
Proof. exact (cv_constructed mem first n). Qed.
Theorem C171_loops {A} (mem : list A) v xs : fits_memory mem -> cv_covers mem v xs ->
  cv_size v = zlen xs /\ cv_empty v = (length xs =? 0)%nat /\
  visits (ptr_range mem (cv_first v) (cv_last v)) xs /\ visits (rev_range mem (cv_first v) (cv_last v)) (rev xs).
Proof. exact (cv_reads mem v xs). Qed.
Theorem C171_elements {A} const dbg (mem : list A) v xs i : fits_memory mem -> cv_covers mem v xs -> 0 <= i ->
  (forall x, nth_error xs (Z.to_nat i) = Some x -> cv_get const dbg mem v i = Ok x /\ cv_at mem v i = Ok x) /\
  (zlen xs <= i -> cv_at mem v i = Throw).
Proof. exact (cv_elements const dbg mem v xs i). Qed.
Theorem C171_ends {A} dbg (mem : list A) v xs x y : fits_memory mem ->
  (cv_covers mem v (x :: xs) -> cv_front dbg mem v = Ok x) /\ (cv_covers mem v (xs ++ [y]) -> cv_back dbg mem v = Ok y).
Proof. exact (cv_ends dbg mem v xs x y). Qed.
Theorem C171_history {A} (eqb : A -> A -> bool) dbg os (mem : list A) v xs ys outs :
  fits_memory mem -> cv_covers mem v xs -> effects eqb cview_allows os xs = Some (ys, outs) ->
  exists mem' v', run_ops (cv_step eqb dbg) os mem v = Ok (mem', v', outs) /\ cv_covers mem' v' ys /\
    same_outside (cv_first v) (cv_last v) mem mem'.
Proof. exact (history eqb (cv_step eqb dbg) cv_covers cv_first cv_last cview_allows (cv_good eqb dbg) os mem v xs ys outs). Qed.
Theorem C171_find {A} (eqb : A -> A -> bool) (mem : list A) v xs x : cv_covers mem v xs ->
  cv_find eqb mem v x = Ok (cv_first v + zlen (take_while (not_eq eqb x) xs)) /\
  cv_find_not eqb mem v x = Ok (cv_first v + zlen (take_while (is_eq eqb x) xs)).
Proof. exact (cv_finds eqb mem v xs x). Qed.
Theorem C171_add_back {A} (mem : list A) v xs n : fits_memory mem -> cv_covers mem v xs -> 0 <= n <= zlen xs ->
  (w <- cv_remove_prefix mem v n ;; cv_add_prefix mem w n) = Ok v /\
  (w <- cv_remove_suffix mem v n ;; cv_add_suffix mem w n) = Ok v.
Proof. exact (cv_add_back mem v xs n). Qed.
Theorem C171_end_refuted {A} (mem : list A) v xs : fits_memory mem -> cv_covers mem v xs ->
  cv_get true true mem v (zlen xs) = Throw /\ cv_get false true mem v (zlen xs) = at_pos mem (cv_last v).
Proof. exact (cv_assert_end mem v xs). Qed.
Print Assumptions C171_constructed.
Print Assumptions C171_loops.
Print Assumptions C171_elements.
Print Assumptions C171_ends.
Print Assumptions C171_history.
Print Assumptions C171_find.
Print Assumptions C171_add_back.
Print Assumptions C171_end_refuted.
Example C171_nontrivial :
  let mem := [7; 1; 1; 2; 3; 3; 2; 9] in let v := cv_between 1 7 in
  let os := [PopWhile 1 false; Store 1 5; PopUntil 3 true; SkipUntil 8 true; DropBack 100; PopUntil 0 true] in
  let outs := [[1; 1]; []; [2; 5]; []; []; []] in
  cv_covers mem v [1; 1; 2; 3; 3; 2] /\ fits_memory mem /\
  effects Z.eqb cview_allows os [1; 1; 2; 3; 3; 2] = Some ([], outs) /\
  (exists v', run_ops (cv_step Z.eqb true) os mem v = Ok ([7; 1; 1; 2; 5; 3; 2; 9], v', outs)) /\
  cv_find Z.eqb mem v 3 = Ok 4 /\ cv_find_not Z.eqb mem v 1 = Ok 3 /\ cv_get false true mem v 6 = Ok 9.
Proof.
  split; [exists [7], [9]; auto|]. split; [reflexivity|]. split; [vm_compute; reflexivity|].
  split; [eexists; vm_compute; reflexivity|]. vm_compute. auto.
Qed.

(** ** C172: subspan of contiguous_view and iter_view *)
Theorem C172_contiguous_partial {A} (mem : list A) v xs count : fits_memory mem -> cv_covers mem v xs -> 0 <= count ->
  exists w, cv_subspan mem v 0 count = Ok w /\ cv_covers mem w (front_n count xs).
Proof. exact (cv_subspan_zero mem v xs count). Qed.
Theorem C172_iter_partial {A} (mem : list A) v xs count : fits_memory mem -> iv_covers mem v xs -> 0 <= count ->
  exists w, iv_subspan mem v 0 count = Ok w /\ iv_covers mem w (front_n count xs).
Proof. exact (iv_subspan_zero mem v xs count). Qed.
Theorem C172_contiguous_refuted {A} (mem : list A) v xs offset count :
  fits_memory mem -> cv_covers mem v xs -> 0 < offset <= zlen xs -> 0 <= count ->
  exists w, cv_subspan mem v offset count = Ok w /\
    cv_size w = sz (zlen (front_n count (skip_n offset xs)) - offset) /\ cv_size w <> zlen (front_n count (skip_n offset xs)).
Proof. exact (cv_subspan_wrong mem v xs offset count). Qed.
Theorem C172_iter_refuted {A} (mem : list A) v xs offset count :
  fits_memory mem -> iv_covers mem v xs -> 0 < offset <= zlen xs -> 0 <= count ->
  exists w, iv_subspan mem v offset count = Ok w /\
    iv_size w = sz (zlen (front_n count (skip_n offset xs)) - offset) /\ iv_size w <> zlen (front_n count (skip_n offset xs)).
Proof. exact (iv_subspan_wrong mem v xs offset count). Qed.
Print Assumptions C172_contiguous_partial.
Print Assumptions C172_iter_partial.
Print Assumptions C172_contiguous_refuted.
Print Assumptions C172_iter_refuted.
Example C172_nontrivial :
  let mem := [1; 2; 3; 4; 5] in
  cv_covers mem (cv_between 0 5) mem /\ iv_covers mem (iv_between 0 5) mem /\
  cv_subspan mem (cv_between 0 5) 0 3 = Ok (cv_between 0 3) /\ cv_subspan mem (cv_between 0 5) 1 3 = Ok (cv_between 1 3) /\
  cv_subspan mem (cv_between 0 5) 3 2 = Ok (CView 3 2) /\ iv_subspan mem (iv_between 0 5) 3 2 = Ok (IView 3 2 (2 ^ 64 - 1)).
Proof. split; [exists [], []; auto|]. split; [split; [exists [], []; auto | reflexivity]|]. vm_compute. auto. Qed.

(** ** C173: an iter_view *)
Theorem C173_constructed {A} (mem : list A) first n : fits_memory mem -> 0 <= first -> 0 <= n -> first + n <= zlen mem ->
  iv_make mem first n = Ok (iv_between first (first + n)) /\
  iv_covers mem (iv_between first (first + n)) (front_n n (skip_n first mem)).
Proof. exact (iv_constructed mem first n). Qed.
Theorem C173_reads {A} dbg (mem : list A) v xs i : fits_memory mem -> iv_covers mem v xs -> 0 <= i ->
  iv_empty v = (length xs =? 0)%nat /\
  (forall x, nth_error xs (Z.to_nat i) = Some x -> iv_get dbg mem v i = Ok x /\ (i = 0 -> iv_front dbg mem v = Ok x)) /\
  visits (ptr_range mem (iv_first v) (iv_last v)) xs /\ visits (rev_range mem (iv_first v) (iv_last v)) (rev xs).
Proof. exact (iv_reads dbg mem v xs i). Qed.
Theorem C173_history_partial {A} (eqb : A -> A -> bool) dbg os (mem : list A) v xs ys outs :
  fits_memory mem -> iv_covers mem v xs -> effects eqb (iview_allows eqb dbg) os xs = Some (ys, outs) ->
  exists mem' v', run_ops (iv_step eqb dbg) os mem v = Ok (mem', v', outs) /\ iv_covers mem' v' ys /\
    same_outside (iv_first v) (iv_last v) mem mem'.
Proof. exact (history eqb (iv_step eqb dbg) iv_covers iv_first iv_last (iview_allows eqb dbg) (iv_good eqb dbg) os mem v xs ys outs). Qed.
Theorem C173_find {A} (eqb : A -> A -> bool) (mem : list A) v xs x : iv_covers mem v xs ->
  iv_find eqb mem v x = Ok (iv_first v + zlen (take_while (not_eq eqb x) xs)) /\
  iv_find_not eqb mem v x = Ok (iv_first v + zlen (take_while (is_eq eqb x) xs)).
Proof. exact (iv_finds eqb mem v xs x). Qed.
Theorem C173_add_back {A} (mem : list A) v xs n : fits_memory mem -> iv_covers mem v xs -> 0 <= n <= zlen xs ->
  (w <- iv_remove_prefix mem v n ;; iv_add_prefix mem w n) = Ok v.
Proof. exact (iv_add_back mem v xs n). Qed.
Print Assumptions C173_constructed.
Print Assumptions C173_reads.
Print Assumptions C173_history_partial.
Print Assumptions C173_find.
Print Assumptions C173_add_back.
Example C173_nontrivial :
  let mem := [7; 1; 1; 2; 3; 3; 2; 9] in let v := iv_between 1 7 in
  let os := [PopWhile 1 false; Store 1 5; PopUntil 3 true; PopFront; SkipUntil 8 true; DropFront 100] in
  let outs := [[1; 1]; []; [2; 5]; [2]; []; []] in
  iv_covers mem v [1; 1; 2; 3; 3; 2] /\ fits_memory mem /\
  effects Z.eqb (iview_allows Z.eqb true) os [1; 1; 2; 3; 3; 2] = Some ([], outs) /\
  (exists v', run_ops (iv_step Z.eqb true) os mem v = Ok ([7; 1; 1; 2; 5; 3; 2; 9], v', outs)) /\
  iv_find Z.eqb mem v 3 = Ok 4 /\ iv_find_not Z.eqb mem v 1 = Ok 3.
Proof.
  split; [split; [exists [7], [9]; auto | reflexivity]|]. split; [reflexivity|]. split; [vm_compute; reflexivity|].
  split; [eexists; vm_compute; reflexivity|]. vm_compute. auto.
Qed.

(** ** C174: the assertions of iter_view *)
Theorem C174_refuted {A} (eqb : A -> A -> bool) (mem : list A) v xs x : fits_memory mem -> iv_covers mem v xs ->
  iv_remove_prefix_dc true mem v (zlen xs) = Throw /\
  (exists w, iv_remove_prefix_dc false mem v (zlen xs) = Ok w /\ iv_covers mem w []) /\
  (existsb (is_eq eqb x) xs = false -> iv_pop_until_discard eqb true mem v x = Throw) /\
  (existsb (not_eq eqb x) xs = false -> iv_pop_while_discard eqb true mem v x = Throw).
Proof. exact (iv_asserts eqb mem v xs x). Qed.
Print Assumptions C174_refuted.
Example C174_nontrivial :
  let mem := [1; 2; 3] in let v := iv_between 0 3 in
  iv_covers mem v mem /\ existsb (is_eq Z.eqb 9) mem = false /\ iv_pop_until_discard Z.eqb true mem v 9 = Throw /\
  (exists w, iv_pop_until_discard Z.eqb false mem v 9 = Ok (v, w)) /\
  (exists w, iv_pop_until Z.eqb mem v 9 = Ok (v, w)) /\ existsb (not_eq Z.eqb 1) [1; 1] = false.
Proof.
  split; [split; [exists [], []; auto | reflexivity]|]. split; [reflexivity|]. split; [reflexivity|].
  split; [eexists; vm_compute; reflexivity|]. split; [eexists; vm_compute; reflexivity | reflexivity].
Qed.

(** ** C175: a view *)
Theorem C175_constructed {A} (mem : list A) first n : fits_memory mem -> 0 <= first -> 0 <= n -> first + n <= zlen mem ->
  exists v, vw_make first (first + n) = Ok v /\ vw_covers mem v (front_n n (skip_n first mem)).
Proof. exact (vw_constructed mem first n). Qed.
Theorem C175_reads {A} (mem : list A) v xs i : fits_memory mem -> vw_covers mem v xs -> 0 <= i ->
  vw_empty v = (length xs =? 0)%nat /\ vw_count v = zlen xs /\
  (forall x, nth_error xs (Z.to_nat i) = Some x -> vw_get mem v i = Ok x /\ vw_at mem v i = Ok x /\ (i = 0 -> vw_front mem v = Ok x) /\
     (i = zlen xs - 1 -> vw_back mem v = Ok x)) /\
  (zlen xs <= i -> vw_at mem v i = Throw) /\
  visits (ptr_range mem (vw_first v) (vw_last v)) xs /\ visits (rev_range mem (vw_first v) (vw_last v)) (rev xs).
Proof. exact (vw_reads mem v xs i). Qed.
Theorem C175_history_partial {A} (eqb : A -> A -> bool) os (mem : list A) v xs ys outs :
  fits_memory mem -> vw_covers mem v xs -> effects eqb view_allows os xs = Some (ys, outs) ->
  exists mem' v', run_ops vw_step os mem v = Ok (mem', v', outs) /\ vw_covers mem' v' ys /\
    same_outside (vw_first v) (vw_last v) mem mem'.
Proof. exact (history eqb vw_step vw_covers vw_first vw_last view_allows (vw_good eqb) os mem v xs ys outs). Qed.
Theorem C175_too_many_refuted {A} (mem : list A) v xs n :
  fits_memory mem -> vw_covers mem v xs -> zlen xs < n -> vw_first v + n <= zlen mem ->
  exists v', vw_remove_prefix mem v n = Ok v' /\ vw_empty v' = true /\ vw_count v' = 0 /\ vw_last v' < vw_first v'.
Proof. exact (vw_too_many mem v xs n). Qed.
Print Assumptions C175_constructed.
Print Assumptions C175_reads.
Print Assumptions C175_history_partial.
Print Assumptions C175_too_many_refuted.
Example C175_nontrivial :
  let mem := [1; 2; 3; 4; 5; 6; 7; 8] in let v := View 1 7 6 in
  let os := [PopFront; PopBackN 2; Store 1 9; TryPopFront; PopBack; PopFrontN 100; TryPopFront] in
  let outs := [[2]; [6; 7]; []; [3]; [5]; [9]; []] in
  vw_covers mem v [2; 3; 4; 5; 6; 7] /\ fits_memory mem /\
  effects Z.eqb view_allows os [2; 3; 4; 5; 6; 7] = Some ([], outs) /\
  (exists v', run_ops vw_step os mem v = Ok ([1; 2; 3; 9; 5; 6; 7; 8], v', outs)) /\
  vw_remove_prefix mem (View 1 3 2) 4 = Ok (View 5 3 (-2)).
Proof.
  split; [split; [exists [1], [8]; auto | reflexivity]|]. split; [reflexivity|]. split; [vm_compute; reflexivity|].
  split; [eexists; vm_compute; reflexivity | vm_compute; reflexivity].
Qed.

(** ** C176: comparing views *)
Theorem C176_contiguous_equal {A} (eqb : A -> A -> bool) (mem : list A) x y xs ys :
  fits_memory mem -> cv_covers mem x xs -> cv_covers mem y ys ->
  exists b, cv_eq eqb mem x y = Ok b /\ (b = true <-> Forall2 (fun x y => eqb x y = true) xs ys).
Proof. exact (cv_equal eqb mem x y xs ys). Qed.
Theorem C176_iter_equal {A} (eqb : A -> A -> bool) (mem : list A) x y xs ys : iv_covers mem x xs -> iv_covers mem y ys ->
  exists b, iv_eq eqb mem x y = Ok b /\ (b = true <-> Forall2 (fun x y => eqb x y = true) xs ys).
Proof. exact (iv_equal eqb mem x y xs ys). Qed.
Theorem C176_less {A} (ltb : A -> A -> bool) (mem xs ys : list A) : (forall x y, ltb x y = true -> ltb y x = false) ->
  (forall x y, cv_covers mem x xs -> cv_covers mem y ys -> exists b, cv_lt ltb mem x y = Ok b /\ (b = true <-> precedes ltb xs ys)) /\
  (forall x y, iv_covers mem x xs -> iv_covers mem y ys -> exists b, iv_lt ltb mem x y = Ok b /\ (b = true <-> precedes ltb xs ys)).
Proof. exact (views_less ltb mem xs ys). Qed.
Print Assumptions C176_contiguous_equal.
Print Assumptions C176_iter_equal.
Print Assumptions C176_less.
Example C176_nontrivial :
  let mem := [1; 2; 3; 1; 2; 4; 1; 2] in
  cv_covers mem (cv_between 0 3) [1; 2; 3] /\ cv_covers mem (cv_between 3 6) [1; 2; 4] /\ fits_memory mem /\
  cv_eq Z.eqb mem (cv_between 0 2) (cv_between 6 8) = Ok true /\ cv_eq Z.eqb mem (cv_between 0 3) (cv_between 6 8) = Ok false /\
  cv_lt Z.ltb mem (cv_between 0 3) (cv_between 3 6) = Ok true /\ cv_lt Z.ltb mem (cv_between 0 3) (cv_between 6 8) = Ok false /\
  iv_eq Z.eqb mem (iv_between 0 3) (iv_between 3 6) = Ok false /\ iv_lt Z.ltb mem (iv_between 6 8) (iv_between 0 3) = Ok true.
Proof. split; [exists [], [1; 2; 4; 1; 2]; auto|]. split; [exists [1; 2; 3], [1; 2]; auto|]. vm_compute. auto 9. Qed.

(** ** C177: writing into a span *)
Theorem C177_write_to_span {A} chunks (mem : list A) w xs : sp_covers mem w xs ->
  let ys := concat chunks in
  (zlen ys <= zlen xs ->
   exists mem' w', span_writes mem w chunks = Ok (mem', w') /\
    sp_first w' = sp_first w + zlen ys /\ sp_covers mem' w' (skip_n (zlen ys) xs) /\
    covers mem' (sp_first w) (sp_first w + zlen xs) (ys ++ skip_n (zlen ys) xs) /\
    same_outside (sp_first w) (sp_first w + zlen ys) mem mem') /\
  (zlen xs < zlen ys -> span_writes mem w chunks = Throw).
Proof. exact (span_writes_ok chunks mem w xs). Qed.
Theorem C177_span_writer {A} (mem : list A) w xs chunks : fits_memory mem -> sp_covers mem w xs ->
  let ys := concat chunks in
  (zlen ys <= zlen xs ->
   exists mem' w', sw_writes mem w chunks = Ok (mem', w') /\
    sp_first w' = sp_first w + zlen ys /\ sp_covers mem' w' (skip_n (zlen ys) xs) /\
    covers mem' (sp_first w) (sp_first w + zlen xs) (ys ++ skip_n (zlen ys) xs) /\
    same_outside (sp_first w) (sp_first w + zlen ys) mem mem') /\
  (zlen xs < zlen ys -> sw_writes mem w chunks = Throw).
Proof. exact (sw_writes_ok mem w xs chunks). Qed.
Theorem C177_too_long {A} (mem : list A) w xs ys : sp_covers mem w xs -> zlen xs < zlen ys ->
  write_to_span mem w ys = Throw /\ sw_write mem w ys = Throw.
Proof. exact (write_span_long mem w xs ys). Qed.
Theorem C177_ntz {A} (nul : A -> bool) mem w (s : list A) z :
  (nul z = true -> write_to_span_ntz nul mem w (s ++ [z]) = write_to_span mem w s /\ sw_write_ntz nul mem w (s ++ [z]) = sw_write mem w s) /\
  (nul z = false -> write_to_span_ntz nul mem w (s ++ [z]) = Throw /\ sw_write_ntz nul mem w (s ++ [z]) = Throw).
Proof. exact (write_ntz_ok nul mem w s z). Qed.
Theorem C177_rest {A} (mem : list A) w xs n : fits_memory mem -> sp_covers mem w xs -> 0 <= n ->
  (n <= zlen xs -> exists w', sw_remove_prefix mem w n = Ok w' /\ sp_covers mem w' (skip_n n xs)) /\
  (zlen xs < n -> sw_remove_prefix mem w n = Throw) /\
  (forall x, nth_error xs (Z.to_nat n) = Some x -> sw_get mem w n = Ok x) /\
  (zlen xs <= n -> sw_get mem w n = Throw).
Proof. exact (sw_rest_ok mem w xs n). Qed.
Theorem C177_construct {A} (mem : list A) first size count :
  (count <= size -> sw_make mem first size count = Ok (Span first count)) /\ (size < count -> sw_make mem first size count = Throw).
Proof. exact (sw_make_ok mem first size count). Qed.
Print Assumptions C177_write_to_span.
Print Assumptions C177_span_writer.
Print Assumptions C177_too_long.
Print Assumptions C177_ntz.
Print Assumptions C177_rest.
Print Assumptions C177_construct.
Example C177_nontrivial :
  let mem := [0; 0; 0; 0; 0; 0] in let w := sp_make 1 4 in
  sp_covers mem w [0; 0; 0; 0] /\ fits_memory mem /\
  sw_writes mem w [[1]; [2; 3]; []] = Ok ([0; 1; 2; 3; 0; 0], sp_make 4 1) /\ sw_writes mem w [[1]; [2; 3]; [4; 5]] = Throw /\
  span_writes mem w [[1]; [2; 3]; []] = Ok ([0; 1; 2; 3; 0; 0], sp_make 4 1) /\
  sw_write_ntz (Z.eqb 0) mem w [7; 8; 0] = Ok ([0; 7; 8; 0; 0; 0], sp_make 3 2) /\ sw_write_ntz (Z.eqb 0) mem w [7; 8] = Throw.
Proof. split; [exists [0], [0]; auto|]. vm_compute. auto 7. Qed.

(** ** C178: keep_n keeps the best n *)
Theorem C178_keeps {A} ascending (func : A -> A -> bool) : strict_weak func -> forall max dflt vs,
  exists kept dropped, keep_all ascending func (keep_make max dflt) vs = Ok kept /\ length kept = max /\
    Permutation (kept ++ dropped) (repeat dflt max ++ vs) /\ sorted_by (better ascending func) kept /\
    (forall d k, In d dropped -> In k kept -> better ascending func d k = false).
Proof. exact (keep_n_ok ascending func). Qed.
Print Assumptions C178_keeps.
Example C178_nontrivial :
  strict_weak Z.ltb /\
  keep_all true Z.ltb (keep_make 3 100) [5; 1; 7; 3; 9; 2] = Ok [1; 2; 3] /\
  keep_all false Z.ltb (keep_make 3 0) [5; 1; 7; 3; 9; 2] = Ok [9; 7; 5] /\
  keep_all true Z.ltb (keep_make 3 0) [5; 1] = Ok [0; 0; 0].
Proof. split; [constructor; intros; lia|]. vm_compute. auto. Qed.

(** Properties of the hash tables: C160 to C168. *)
From Verif Require Import Common Ints Pipelines SpecPipes Iterators HashTables SpecHashTables HashTablesProofs PerfectHashProofs.
Open Scope Z_scope.

(** ** C160: hash_set_t is a set of at most n keys. *)
Theorem C160_inserts_partial : forall {K} (eqb : K -> K -> bool) (D : decides eqb) (h : K -> Z) n ks,
  (0 < n)%nat -> (length (distinct eqb ks) <= n)%nat ->
  exists l, hs_run eqb h ks (hs_make n) = Ok l /\
    forall k, hs_exists eqb h l k = Ok (existsb (eqb k) ks) /\
              hs_count eqb h l k = Ok (if existsb (eqb k) ks then 1 else 0).
Proof. exact (fun K => @hs_inserts K). Qed.
Print Assumptions C160_inserts_partial.
Theorem C160_full : forall {K} (eqb : K -> K -> bool) (D : decides eqb) (h : K -> Z) n ks,
  (0 < n)%nat -> (n < length (distinct eqb ks))%nat -> hs_run eqb h ks (hs_make n) = Throw.
Proof. exact (fun K => @hs_full K). Qed.
Print Assumptions C160_full.
Theorem C160_slots : forall {K} (eqb : K -> K -> bool) (D : decides eqb) (h : K -> Z) n ks l k i l1 ks' l2,
  (0 < n)%nat -> hs_run eqb h ks (hs_make n) = Ok l -> hs_insert eqb h l k = Ok (i, l1) -> hs_run eqb h ks' l1 = Ok l2 ->
  (i < n)%nat /\ hs_insert eqb h l2 k = Ok (i, l2) /\
  forall k' i' l3, k' <> k -> hs_insert eqb h l2 k' = Ok (i', l3) -> i' <> i.
Proof. exact (fun K => @hs_slots K). Qed.
Print Assumptions C160_slots.
Theorem C160_no_slots_refuted : forall {K} (eqb : K -> K -> bool) (h : K -> Z) k,
  hs_insert eqb h (hs_make 0) k = UB /\ hs_exists eqb h (hs_make 0) k = UB.
Proof. exact (fun K => @hs_zero K). Qed.
Print Assumptions C160_no_slots_refuted.
Example C160_nontrivial :
  length (distinct Z.eqb [3; 11; 19; 3; 5]) = 4%nat /\ home 8 3 = home 8 11 /\ home 8 11 = home 8 19 /\
  (exists l, hs_run Z.eqb (fun k => k) [3; 11; 19; 3; 5] (hs_make 8) = Ok l /\
     hs_exists Z.eqb (fun k => k) l 19 = Ok true /\ hs_exists Z.eqb (fun k => k) l 27 = Ok false) /\
  hs_run Z.eqb (fun k => k) [3; 11; 19; 3; 5] (hs_make 3) = Throw.
Proof. repeat (split; [reflexivity|]). split; [|reflexivity]. eexists. split; [vm_compute; reflexivity|]. vm_compute. repeat split. Qed.

(** ** C161: bounded_hash_set_t is a set of at most n keys while none is erased. *)
Theorem C161_inserts : forall {K} (eqb : K -> K -> bool) (D : decides eqb) (h : K -> Z) n ks,
  (0 < n)%nat ->
  ((length (distinct eqb ks) <= n)%nat ->
   exists l, bs_run eqb h (map SInsert ks) (bs_make n) = Ok l /\
     forall k, bs_exists eqb h l k = Ok (existsb (eqb k) ks)) /\
  ((n < length (distinct eqb ks))%nat -> bs_run eqb h (map SInsert ks) (bs_make n) = Throw).
Proof. exact (fun K => @bs_inserts K). Qed.
Print Assumptions C161_inserts.
Theorem C161_find_empty : forall {K} (eqb : K -> K -> bool) (D : decides eqb) (h : K -> Z) n ks l,
  (0 < n)%nat -> bs_run eqb h (map SInsert ks) (bs_make n) = Ok l ->
  (forall k, In k ks -> exists p, bs_find eqb h l k = Ok p /\ p <> length l /\ it_get l p = Ok (k, tt)) /\
  bs_empty l = match ks with [] => true | _ => false end.
Proof. exact (fun K => @bs_finds_present K). Qed.
Print Assumptions C161_find_empty.
Example C161_nontrivial :
  exists l, bs_run Z.eqb (fun k => k) (map SInsert [3; 11; 19; 3; 5]) (bs_make 8) = Ok l /\
    bs_exists Z.eqb (fun k => k) l 19 = Ok true /\ bs_find Z.eqb (fun k => k) l 19 = Ok 6%nat /\ bs_empty l = false.
Proof. eexists. split; [vm_compute; reflexivity|]. vm_compute. repeat split. Qed.

(** ** C162: histories with erase. *)
(** Any history is right as long as no two of its keys start at the same slot. *)
Theorem C162_set_partial : forall {K} (eqb : K -> K -> bool) (D : decides eqb) (h : K -> Z) n os,
  (0 < n)%nat -> no_collisions n h (map sop_key os) ->
  exists l, bs_run eqb h os (bs_make n) = Ok l /\
    forall k, bs_exists eqb h l k = Ok (existsb (eqb k) (set_ops eqb os [])).
Proof. exact (fun K => @bs_history K). Qed.
Print Assumptions C162_set_partial.
Theorem C162_map_partial : forall {K V} (eqb : K -> K -> bool) (D : decides eqb) (h : K -> Z) (dflt : V) n os,
  (0 < n)%nat -> Z.of_nat n < 2 ^ 64 -> no_collisions n h (map op_key os) ->
  exists l m, map_ops eqb n os [] = Some m /\ mp_run eqb h dflt os (mp_make n) = Ok l /\ shows eqb h n l m.
Proof. exact (fun K V eqb D h dflt => @mp_history_erase K V eqb D h dflt). Qed.
Print Assumptions C162_map_partial.
(** Two keys that start at the same slot: erasing the first one loses the other. *)
Theorem C162_set_loses_refuted : forall {K} (eqb : K -> K -> bool) (D : decides eqb) (h : K -> Z) n a b,
  (2 <= n)%nat -> a <> b -> home n (h a) = home n (h b) ->
  exists l, bs_run eqb h [SInsert a; SInsert b; SErase a] (bs_make n) = Ok l /\ bs_exists eqb h l b = Ok false.
Proof. exact (fun K => @bs_erase_loses K). Qed.
Print Assumptions C162_set_loses_refuted.
(** … and an erased key can come back. *)
Theorem C162_set_returns_refuted : forall {K} (eqb : K -> K -> bool) (D : decides eqb) (h : K -> Z) n a b,
  (2 <= n)%nat -> a <> b -> home n (h a) = home n (h b) ->
  exists l, bs_run eqb h [SInsert a; SInsert b; SErase a; SInsert b; SErase b; SInsert a] (bs_make n) = Ok l /\
            bs_exists eqb h l b = Ok true.
Proof. exact (fun K => @bs_erase_returns K). Qed.
Print Assumptions C162_set_returns_refuted.
Theorem C162_map_loses_refuted : forall {K V} (eqb : K -> K -> bool) (D : decides eqb) (h : K -> Z) (dflt : V) n a b va vb,
  (2 <= n)%nat -> a <> b -> home n (h a) = home n (h b) ->
  exists l, mp_run eqb h dflt [MInsert a va; MInsert b vb; MErase a] (mp_make n) = Ok l /\
            mp_try_get eqb h l b = Ok None /\ mp_size l = 1.
Proof. exact (fun K V eqb D h dflt => @mp_erase_loses K V eqb D h dflt). Qed.
Print Assumptions C162_map_loses_refuted.
Example C162_nontrivial :
  no_collisions 8 (fun k : Z => k) (map sop_key [SInsert 1; SInsert 2; SErase 1; SInsert 3; SErase 4]) /\
  existsb (Z.eqb 1) (set_ops Z.eqb [SInsert 1; SInsert 2; SErase 1; SInsert 3; SErase 4] []) = false /\
  existsb (Z.eqb 2) (set_ops Z.eqb [SInsert 1; SInsert 2; SErase 1; SInsert 3; SErase 4] []) = true /\
  home 8 3 = home 8 11 /\ 3 <> 11 /\
  map_ops Z.eqb 8 [MInsert 1 10; MSet 2 20; MErase 1; MSet 2 21] [] = Some [(2, 21)].
Proof.
  split; [|vm_compute; repeat split; discriminate].
  intros a b A B. cbn [map sop_key In] in A, B.
  destruct A as [<-|[<-|[<-|[<-|[<-|[]]]]]]; destruct B as [<-|[<-|[<-|[<-|[<-|[]]]]]]; vm_compute; intros E; congruence.
Qed.

(** ** C163: absent keys and loops in a bounded_hash_set_t. *)
(** find and erase of an absent key give an iterator to an empty slot, not end( ); a loop
    over a set with any key in it is undefined or does not visit the keys. *)
Theorem C163_absent_refuted : forall {K} (eqb : K -> K -> bool) (D : decides eqb) (h : K -> Z) n ks l,
  (0 < n)%nat -> bs_run eqb h (map SInsert ks) (bs_make n) = Ok l ->
  forall k, ~ In k ks -> (length (distinct eqb ks) < n)%nat ->
  exists p l', bs_find eqb h l k = Ok p /\ p <> length l /\ rd l p = Ok None /\ bs_erase eqb h l k = Ok (Some p, l').
Proof. exact (fun K => @bs_finds_absent K). Qed.
Print Assumptions C163_absent_refuted.
(** In a full set they give end( ). *)
Theorem C163_absent_full : forall {K} (eqb : K -> K -> bool) (D : decides eqb) (h : K -> Z) n ks l,
  (0 < n)%nat -> bs_run eqb h (map SInsert ks) (bs_make n) = Ok l ->
  forall k, ~ In k ks -> length (distinct eqb ks) = n ->
  bs_find eqb h l k = Ok (length l) /\ bs_erase eqb h l k = Ok (None, l).
Proof. exact (fun K => @bs_finds_full K). Qed.
Print Assumptions C163_absent_full.
Theorem C163_loop_refuted : forall {K} (eqb : K -> K -> bool) (D : decides eqb) (h : K -> Z) n ks l,
  (0 < n)%nat -> bs_run eqb h (map SInsert ks) (bs_make n) = Ok l ->
  forall past xs, visits (it_range past l (length l)) xs <-> ks = [] /\ xs = [].
Proof. exact (fun K => @bs_finds_loop K). Qed.
Print Assumptions C163_loop_refuted.
Example C163_nontrivial :
  exists l, bs_run Z.eqb (fun k => k) (map SInsert [3; 11]) (bs_make 8) = Ok l /\
    bs_find Z.eqb (fun k => k) l 5 = Ok 6%nat /\ (length (distinct Z.eqb [3; 11]%Z) < 8)%nat.
Proof. eexists. split; [vm_compute; reflexivity|]. split; [reflexivity|]. vm_compute. lia. Qed.
Example C163_full_nontrivial :
  exists l, bs_run Z.eqb (fun k => k) (map SInsert [3; 11]) (bs_make 2) = Ok l /\
    bs_find Z.eqb (fun k => k) l 5 = Ok 2%nat /\ (length (distinct Z.eqb [3; 11]%Z) = 2)%nat.
Proof. eexists. split; [vm_compute; reflexivity|]. split; reflexivity. Qed.

(** ** C164: bounded_hash_map is a map of at most n keys while none is erased. *)
Theorem C164_map_partial : forall {K V} (eqb : K -> K -> bool) (D : decides eqb) (h : K -> Z) (dflt : V) n os m,
  (0 < n)%nat -> Z.of_nat n < 2 ^ 64 -> forallb (fun o => negb (erases o)) os = true -> map_ops eqb n os [] = Some m ->
  exists l, mp_run eqb h dflt os (mp_make n) = Ok l /\ shows eqb h n l m.
Proof. exact (fun K V eqb D h dflt => @mp_history_ok K V eqb D h dflt). Qed.
Print Assumptions C164_map_partial.
Theorem C164_items : forall {K V} (eqb : K -> K -> bool) (h : K -> Z) (dflt : V) items l,
  mp_from eqb h l items = mp_run eqb h dflt (map (fun p => MInsert (fst p) (snd p)) items) l.
Proof. exact (fun K V eqb h dflt => @mp_from_run K V eqb h dflt). Qed.
Print Assumptions C164_items.
(** A full map: undefined behaviour instead of an error. *)
Theorem C164_full_refuted : forall {K V} (eqb : K -> K -> bool) (D : decides eqb) (h : K -> Z) (dflt : V) n os,
  (0 < n)%nat -> Z.of_nat n < 2 ^ 64 -> forallb (fun o => negb (erases o)) os = true -> map_ops eqb n os [] = None ->
  mp_run eqb h dflt os (mp_make n) = UB.
Proof. exact (fun K V eqb D h dflt => @mp_history_full K V eqb D h dflt). Qed.
Print Assumptions C164_full_refuted.
Theorem C164_no_slots_refuted : forall {K V} (eqb : K -> K -> bool) (h : K -> Z) k (v : V),
  mp_insert eqb h (mp_make 0) k v = UB /\ mp_exists eqb h (@mp_make K V 0) k = UB.
Proof. exact (fun K V eqb h => @mp_zero K V eqb h). Qed.
Print Assumptions C164_no_slots_refuted.
Example C164_nontrivial :
  map_ops Z.eqb 2 [MInsert 3 30; MSet 11 110; MInsert 3 31] [] = Some [(3, 31); (11, 110)] /\
  map_ops Z.eqb 2 [MInsert 3 30; MSet 11 110; MInsert 5 50] [] = None /\
  (exists l, mp_run Z.eqb (fun k => k) 0 [MInsert 3 30; MSet 11 110; MInsert 3 31] (mp_make 2) = Ok l /\
     mp_at Z.eqb (fun k => k) l 3 = Ok 31 /\ mp_size l = 2) /\
  mp_run Z.eqb (fun k => k) 0 [MInsert 3 30; MSet 11 110; MInsert 5 50] (mp_make 2) = UB.
Proof. repeat (split; [reflexivity|]). split; [|reflexivity]. eexists. split; [vm_compute; reflexivity|]. vm_compute. repeat split. Qed.

(** ** C165: find of a key that is not in a bounded_hash_map: an iterator to an empty
    slot, not end( ). *)
Theorem C165_absent_refuted : forall {K V} (eqb : K -> K -> bool) (D : decides eqb) (h : K -> Z) (dflt : V) n os m l k,
  (0 < n)%nat -> Z.of_nat n < 2 ^ 64 -> forallb (fun o => negb (erases o)) os = true ->
  map_ops eqb n os [] = Some m -> mp_run eqb h dflt os (mp_make n) = Ok l ->
  alookup eqb m k = None -> (length m < n)%nat ->
  exists p, mp_find eqb h l k = Ok p /\ p <> mp_capacity l /\ rd l p = Ok None.
Proof. exact (fun K V eqb D h dflt => @mp_find_absent K V eqb D h dflt). Qed.
Print Assumptions C165_absent_refuted.
Example C165_nontrivial :
  exists l, mp_run Z.eqb (fun k => k) 0 [MInsert 3 30; MSet 11 110] (mp_make 8) = Ok l /\
    mp_find Z.eqb (fun k => k) l 5 = Ok 6%nat /\ mp_capacity l = 8%nat /\ alookup Z.eqb [(11, 110); (3, 30)] 5 = None.
Proof. eexists. split; [vm_compute; reflexivity|]. vm_compute. repeat split. Qed.

(** ** C166: static_hash_t is a map of at most n keys, if the hashes differ. *)
Theorem C166_map_partial : forall {K V} (h : K -> Z) (dflt : V) (eqb : K -> K -> bool) n (items : list (K * V)) U,
  decides eqb -> (0 < n)%nat -> inj_on (st_hash h) U -> incl (map fst items) U ->
  match puts eqb n items [] with
  | Some m => exists l, st_make h n items = Ok l /\
      forall k, In k U -> st_get h dflt l k =
        match alookup eqb m k with Some v => Ok v | None => if (length m <? n)%nat then Ok dflt else UB end
  | None => st_make h n items = UB
  end.
Proof. exact (fun K V => @st_table K V). Qed.
(** Two keys are stored under the same hash when their hash values differ by a multiple of 2^64 - 2, and the stored hashes are from 1 on, below the largest std::size_t. *)
Theorem C166_same_hash :
  forall (K : Type) (h : K -> Z) a b,
  (1 <= st_hash h a <= 2 ^ 64 - 2)%Z /\
  (st_hash h a = st_hash h b <-> h a mod (2 ^ 64 - 2) = h b mod (2 ^ 64 - 2))%Z.
Proof. exact c166_same_hash_l. Qed.
Print Assumptions C166_same_hash.
Print Assumptions C166_map_partial.
(** operator[] of a key whose value is readable stores that value (the default for a new key) and refers to it. *)
Theorem C166_index : forall {K V} (h : K -> Z) (dflt : V) l k v, st_get h dflt l k = Ok v ->
  exists n l', st_index h dflt l k = Ok (n, l') /\ st_set h l k v = Ok l' /\ slot_value dflt l' n = Ok v.
Proof. exact (fun K V => @st_index_get K V). Qed.
Print Assumptions C166_index.
(** The stored hashes are never 0, which marks an empty slot. *)
Theorem C166_hash : forall {K} (h : K -> Z) k, (1 <= st_hash h k < 2 ^ 64)%Z.
Proof. exact (fun K => @st_hash_range K). Qed.
Print Assumptions C166_hash.
Theorem C166_same_hash_refuted : forall {K V} (h : K -> Z) (dflt : V) n a b (v : V),
  (0 < n)%nat -> st_hash h a = st_hash h b -> exists l, st_make h n [(a, v)] = Ok l /\ st_get h dflt l b = Ok v.
Proof. exact (fun K V => @st_same_hash K V). Qed.
Print Assumptions C166_same_hash_refuted.
(** Different hash values need not be enough: 0 and 2^64 - 2 are stored as the same one. *)
Example C166_nontrivial :
  puts Z.eqb 8 [(3, 30); (11, 110); (3, 31)] [] = Some [(3, 31); (11, 110)] /\
  inj_on (st_hash (fun k : Z => k)) [3; 11; 19] /\
  (exists l, st_make (fun k => k) 8 [(3, 30); (11, 110); (3, 31)] = Ok l /\
     st_get (fun k => k) 0 l 3 = Ok 31 /\ st_get (fun k => k) 0 l 11 = Ok 110 /\ st_get (fun k => k) 0 l 19 = Ok 0) /\
  st_hash (fun k => k) 0 = st_hash (fun k => k) (2 ^ 64 - 2).
Proof.
  split; [reflexivity|]. split.
  - intros a b [<-|[<-|[<-|[]]]] [<-|[<-|[<-|[]]]]; vm_compute; intros E; congruence.
  - split; [|reflexivity]. eexists. split; [vm_compute; reflexivity|]. vm_compute. repeat split.
Qed.

(** ** C167: fixed_lookup is a map of at most n keys, if the hashes differ. *)
Theorem C167_map_partial : forall {K V} (h : K -> Z) (dflt : V) (eqb : K -> K -> bool) n (items : list (K * V)) U,
  decides eqb -> (0 < n)%nat -> Z.of_nat n < 2 ^ 64 -> inj_on (fl_hash h) U -> incl (map fst items) U ->
  match puts eqb n items [] with
  | Some m => exists l, fl_run h items (repeat None n) = Ok l /\ fl_size l = zlen m /\
      forall k, In k U -> fl_exists h l k = Ok (has eqb m k) /\
        fl_get h dflt l k = match alookup eqb m k with Some v => Ok v | None => Throw end
  | None => fl_run h items (repeat None n) = Throw
  end.
Proof. exact (fun K V => @fl_table K V). Qed.
(** Two keys are stored under the same hash when their hash values differ by a multiple of 2^64 - 3, and the stored hashes are from 2 on, below the largest std::size_t. *)
Theorem C167_same_hash :
  forall (K : Type) (h : K -> Z) a b,
  (2 <= fl_hash h a <= 2 ^ 64 - 2)%Z /\
  (fl_hash h a = fl_hash h b <-> h a mod (2 ^ 64 - 3) = h b mod (2 ^ 64 - 3))%Z.
Proof. exact c167_same_hash_l. Qed.
Print Assumptions C167_same_hash.
Print Assumptions C167_map_partial.
(** The position insert returns stays that of the key. *)
Theorem C167_positions : forall {K V} (h : K -> Z) (dflt : V) n items l k v i l1 items' l2,
  (0 < n)%nat -> fl_run h items (repeat None n) = Ok l -> fl_insert h l k v = Ok (i, l1) ->
  (forall p, In p items' -> fl_hash h (fst p) <> fl_hash h k) -> fl_run h items' l1 = Ok l2 ->
  fl_get_existing dflt l2 i = Ok v.
Proof. exact (fun K V => @fl_insert_index K V). Qed.
Print Assumptions C167_positions.
Theorem C167_index : forall {K V} (h : K -> Z) (dflt : V) l k,
  (forall v, fl_get h dflt l k = Ok v -> fl_index h dflt l k = fl_insert h l k v) /\
  (fl_exists h l k = Ok false -> fl_index h dflt l k = fl_insert h l k dflt).
Proof. exact (fun K V h dflt l k => conj (@fl_index_present K V h dflt l k) (@fl_index_absent K V h dflt l k)). Qed.
Print Assumptions C167_index.
Theorem C167_same_hash_refuted : forall {K V} (h : K -> Z) (dflt : V) n a b (v : V),
  (0 < n)%nat -> fl_hash h a = fl_hash h b ->
  exists l, fl_run h [(a, v)] (repeat None n) = Ok l /\ fl_exists h l b = Ok true /\ fl_get h dflt l b = Ok v.
Proof. exact (fun K V => @fl_same_hash K V). Qed.
Print Assumptions C167_same_hash_refuted.
Example C167_nontrivial :
  (exists l, fl_run (fun k => k) [(3, 30); (11, 110); (3, 31)] (repeat None 8) = Ok l /\
     fl_get (fun k => k) 0 l 3 = Ok 31 /\ fl_size l = 2 /\ fl_exists (fun k => k) l 19 = Ok false) /\
  inj_on (fl_hash (fun k : Z => k)) [3; 11; 19] /\
  fl_hash (fun k => k) 0 = fl_hash (fun k => k) (2 ^ 64 - 3).
Proof.
  split; [eexists; split; [vm_compute; reflexivity|]; vm_compute; repeat split|]. split; [|reflexivity].
  intros a b [<-|[<-|[<-|[]]]] [<-|[<-|[<-|[]]]]; vm_compute; intros E; congruence.
Qed.

(** ** C168: perfect_hash_table. *)
(** A table that was constructed finds its keys and their values and no other key
    (except, maybe, Key{ }). *)
Theorem C168_finds_partial : forall {K V} (eqb : K -> K -> bool) (D : decides eqb) (h : K -> Z) (dk : K) (dv : V)
    limit fuel items t,
  0 < zlen items < 2 ^ 62 -> build h dk dv limit fuel items = Ok t ->
  (forall k v, In (k, v) items -> ph_find eqb h t k = Ok (Some v) /\ ph_contains eqb h t k = Ok true /\ ph_at h t k = Ok v) /\
  (forall k, ~ In k (map fst items) -> k <> dk -> ph_find eqb h t k = Ok None /\ ph_contains eqb h t k = Ok false) /\
  (forall k, exists v, ph_at h t k = Ok v).
Proof. exact (fun K V eqb D h dk dv => @build_finds K V eqb D h dk dv). Qed.
Print Assumptions C168_finds_partial.
(** The construction ends if the hashes differ modulo the number of slots: the loop over
    the salts needs fewer than 4 times as many steps as there are slots, and a few. *)
Theorem C168_ends_partial : forall {K V} (h : K -> Z) (dk : K) (dv : V) limit items,
  0 < zlen items < 2 ^ 60 ->
  NoDup (map (fun p => h (fst p) mod table_size (zlen items)) items) ->
  forall fuel, 4 * table_size (zlen items) + 2 <= Z.of_nat fuel ->
  exists t, build h dk dv limit fuel items = Ok t.
Proof. exact (fun K V h dk dv => @build_ends K V h dk dv). Qed.
Print Assumptions C168_ends_partial.
(** … and never otherwise. *)
Theorem C168_never_ends_refuted : forall {K V} (h : K -> Z) (dk : K) (dv : V) limit items,
  0 < zlen items < 2 ^ 60 ->
  ~ NoDup (map (fun p => h (fst p) mod table_size (zlen items)) items) ->
  forall fuel t, build h dk dv limit fuel items <> Ok t.
Proof. exact (fun K V h dk dv limit items H N fuel t B => N (@build_needs K V h dk dv limit fuel items t H B)). Qed.
Print Assumptions C168_never_ends_refuted.
(** Key{ } can be found although it was not inserted. *)
Theorem C168_default_key_refuted :
  exists t, build (fun k : Z => k) 0 0 30 40 [(2, 20); (6, 60); (3, 30); (7, 70)] = Ok t /\
    ph_contains Z.eqb (fun k => k) t 0 = Ok true.
Proof. exact default_key_found. Qed.
Print Assumptions C168_default_key_refuted.
Example C168_nontrivial :
  (exists t, build (fun k : Z => k) 0 0 30 40 [(1, 10); (2, 20); (3, 30); (4, 40); (5, 50)] = Ok t /\
     ph_at (fun k => k) t 4 = Ok 40 /\ ph_contains Z.eqb (fun k => k) t 9 = Ok false) /\
  table_size (zlen [(1, 10); (5, 50)]) = 4 /\ 1 mod 4 = 5 mod 4 /\
  NoDup (map (fun p : Z * Z => fst p mod table_size 5) [(1, 10); (2, 20); (3, 30); (4, 40); (5, 50)]).
Proof.
  split; [eexists; split; [vm_compute; reflexivity|]; vm_compute; repeat split|]. split; [reflexivity|]. split; [reflexivity|].
  vm_compute. repeat constructor; cbn; intuition discriminate.
Qed.

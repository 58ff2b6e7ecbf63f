(** Further loop lemmas: loops that fill or transform a contiguous part of an array. *)
From Verif Require Import Base.

Lemma fill_loop {A} (d : A) (body : Z -> list A -> res (list A)) (f : Z -> A -> A) off lo hi (l : list A) :
  lo <= hi -> (lo < hi -> 0 <= off + lo /\ off + hi <= zlen l) ->
  (forall j s, lo <= j < hi -> zlen s = zlen l -> body j s = Ok (zupd s (off + j) (f j (zn d s (off + j))))) ->
  exists l', for_up lo hi body l = Ok l' /\ zlen l' = zlen l /\
    forall k, 0 <= k -> zn d l' k = if (off + lo <=? k) && (k <? off + hi) then f (k - off) (zn d l k) else zn d l k.
Proof.
  intros Hle Hb Hs.
  assert (W : wp (for_up lo hi body l) (fun l' => zlen l' = zlen l /\
    forall k, 0 <= k -> zn d l' k = if (off + lo <=? k) && (k <? off + hi) then f (k - off) (zn d l k) else zn d l k)).
  { apply wp_for_up with (I := fun i l' => zlen l' = zlen l /\
      forall k, 0 <= k -> zn d l' k = if (off + lo <=? k) && (k <? off + i) then f (k - off) (zn d l k) else zn d l k); auto.
    - split; [reflexivity|]. intros k Hk.
      destruct (Z.leb_spec (off + lo) k), (Z.ltb_spec k (off + lo)); cbn [andb]; auto; lia.
    - intros i s Hi [Hl Hk]. rewrite Hs by assumption. cbn [wp]. rewrite zlen_zupd. split; [assumption|].
      intros k Hk0. specialize (Hb ltac:(lia)).
      destruct (Z.eq_dec k (off + i)) as [->|Hne].
      + rewrite zn_zupd_eq by lia. rewrite Hk by lia.
        destruct (Z.leb_spec (off + lo) (off + i)), (Z.ltb_spec (off + i) (off + i)), (Z.ltb_spec (off + i) (off + (i + 1)));
          cbn [andb]; try lia. now replace (off + i - off) with i by lia.
      + rewrite zn_zupd_ne by lia. rewrite Hk by lia.
        destruct (Z.leb_spec (off + lo) k), (Z.ltb_spec k (off + i)), (Z.ltb_spec k (off + (i + 1))); cbn [andb]; auto; lia. }
  apply wp_inv in W as (l' & E & H). exists l'. auto.
Qed.

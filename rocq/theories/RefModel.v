(** Model of libs/databases/domain/contents and libs/databases/domain/references. *)
From Coq Require Import List ZArith NArith Lia Bool.
From Coq Require Import Init.Byte Strings.Byte.
From Verif Require Import Base HashModel HashTreeModel.
Import ListNotations.

(** A Go [uint] is a number of 64 bits; kinds and pointer fields are kept as [Z]. *)

(** ** contents *)

(** libs/databases/domain/contents/sdk.go:5-6. *)
Definition min_content_size : Z := 73.
Definition min_contents_size : Z := 81.

(** contents/content.go:5-23. *)
Record content : Type := Content { ct_hash : bytes; ct_data : bytes; ct_kind : Z }.

(** contents/content_builder.go:49-67 (Now) with hash and kind set; empty data is an error. *)
Definition content_now (h data : bytes) (kind : Z) : outcome content :=
  match data with [] => Err | _ => Ok (Content h data kind) end.

(** contents/builder.go:29-45 (Now): at least one content. The map is never read. *)
Definition contents_now (l : list content) : outcome (list content) :=
  match l with [] => Err | _ => Ok l end.

(** contents/content_adapter.go:29-40 (ToContent). *)
Definition content_content (c : content) : bytes :=
  ct_hash c ++ put_u64 (ct_kind c) ++ ct_data c.

(** contents/adapter.go:27-44 (ToContent). *)
Definition contents_content (l : list content) : bytes :=
  concat (map (fun c => put_u64 (zlen (content_content c)) ++ content_content c) l).

Section WithSha.
  Variable H : bytes -> bytes.

  (** contents/content_adapter.go:43-63 (ToInstance). *)
  Definition content_of_content (s : gslice) : outcome content :=
    if (s_len s <? min_content_size)%Z then Err
    else
      do hd <- s_slice s 0 64;
      do kb <- s_slice s 64 72;
      do kind <- get_u64 kb;
      do d <- s_from s 72;
      content_now (from_bytes H (vis hd)) (vis d) kind.

  (** contents/adapter.go:56-72: the loop of ToInstance. Every turn consumes at least 81 bytes
      or stops, so the length of the slice is enough fuel. *)
  Fixpoint contents_loop (fuel : nat) (remaining : gslice) : outcome (list content) :=
    match fuel with
    | O => Fuel
    | S fuel' =>
      if (s_len remaining <=? 0)%Z then Ok []
      else
        do sb <- s_slice remaining 0 8;
        do z <- get_u64 sb;
        let delim := i64 (8 + i64 z) in
        do cs <- s_slice remaining 8 delim;
        do c <- content_of_content cs;
        do rest <- s_from remaining delim;
        do l <- contents_loop fuel' rest;
        Ok (c :: l)
    end.

  (** contents/adapter.go:47-77 (ToInstance). *)
  Definition contents_of_content (s : gslice) : outcome (list content) :=
    if (s_len s <? min_contents_size)%Z then Err
    else
      do l <- contents_loop (slice_fuel s) s;
      contents_now l.
End WithSha.

(** ** references *)

(** references/sdk.go:11-14. *)
Definition pointer_size : Z := 16.
Definition commit_min_size : Z := 208.
Definition content_key_size : Z := 152.
Definition min_reference_size : Z := 360.

(** references/pointer.go, pointer_builder.go:37-47 (Now) with from set: the length is not zero. *)
Record pointer : Type := Pointer { p_from : Z; p_length : Z }.

Definition pointer_now (from length : Z) : outcome pointer :=
  if (length <=? 0)%Z then Err else Ok (Pointer from length).

(** references/pointer_adapter.go:24-35 (ToContent). *)
Definition pointer_content (p : pointer) : bytes :=
  put_u64 (p_from p) ++ put_u64 (p_length p).

(** references/pointer_adapter.go:38-50 (ToPointer). *)
Definition pointer_of_content (s : gslice) : outcome pointer :=
  if negb (s_len s =? pointer_size)%Z then Err
  else
    do a <- s_slice s 0 8;
    do from <- get_u64 a;
    do b <- s_from s 8;
    do len <- get_u64 b;
    pointer_now from len.

(** references/contentkey.go, contentkey_builder.go:57-75 (Now) with all fields set. *)
Record content_key : Type :=
  ContentKey { k_hash : bytes; k_kind : Z; k_content : pointer; k_commit : bytes }.

(** references/contentkey_adapter.go:32-51 (ToContent). *)
Definition key_content (k : content_key) : bytes :=
  k_hash k ++ put_u64 (k_kind k) ++ pointer_content (k_content k) ++ k_commit k.

(** references/contentkeys_adapter.go:27-45 (ToContent). *)
Definition keys_content (l : list content_key) : bytes :=
  put_u64 (zlen l) ++ concat (map key_content l).

(** references/contentkeys_builder.go:29-45 (Now): at least one key.
    The map from hash text to key is [keys_fetch] below. *)
Definition keys_now (l : list content_key) : outcome (list content_key) :=
  match l with [] => Err | _ => Ok l end.

(** contentkeys_builder.go:38-42 and contentkeys.go:61-69 (Fetch): a later key with the same
    hash replaces an earlier one. The map key is the hash's text, injective by C03. *)
Fixpoint keys_find (l : list content_key) (h : bytes) (acc : option content_key) : option content_key :=
  match l with
  | [] => acc
  | k :: rest => keys_find rest h (if bytes_eqb (k_hash k) h then Some k else acc)
  end.

Definition keys_fetch (l : list content_key) (h : bytes) : outcome content_key :=
  match keys_find l h None with Some k => Ok k | None => Err end.

(** contentkeys.go:33-44 (Next). *)
Fixpoint keys_next_from (l : list content_key) (biggest : Z) : Z :=
  match l with
  | [] => biggest
  | k :: rest =>
    let next := i64 (u64 (p_from (k_content k) + p_length (k_content k))) in
    keys_next_from rest (if (biggest <? next)%Z then next else biggest)
  end.
Definition keys_next (l : list content_key) : Z := keys_next_from l 0.

(** contentkeys.go:47-58 (ListByKind). *)
Definition keys_by_kind (l : list content_key) (kind : Z) : list content_key :=
  filter (fun k => (k_kind k =? kind)%Z) l.

(** math/big Int.Bytes: the absolute value, big endian, without leading zeros. *)
Definition big_bytes (z : Z) : bytes :=
  let a := Z.abs z in
  rev (le (if (a =? 0)%Z then 0 else Z.to_nat (Z.log2 a / 8 + 1)) a).

(** math/big Int.SetBytes. *)
Definition big_set (b : bytes) : Z := unle (rev b).

(** [fmt.Sprintf("%d", n)] of an int64: sign and at most 19 digits. *)
Fixpoint dec_digits (fuel : nat) (n : Z) (acc : bytes) : bytes :=
  match fuel with
  | O => acc
  | S fuel' =>
    let acc := byte_of_Z (48 + n mod 10) :: acc in
    if (n <? 10)%Z then acc else dec_digits fuel' (n / 10) acc
  end.
Definition dec_string (n : Z) : bytes :=
  if (n <? 0)%Z then byte_of_Z 45 :: dec_digits 19 (- n) [] else dec_digits 19 n [].

(** references/mine.go:9-27. *)
Record mine : Type := Mine { m_result : bytes; m_proof : Z; m_score : nat }.

(** references/commit.go:10-70. The time is its UnixNano value. *)
Record commit : Type :=
  Commit { c_hash : bytes; c_values : hashtree; c_time : Z; c_parent : option bytes; c_mine : option mine }.

(** references/commit_builder.go:110-119: leading bytes equal to the mining value. *)
Fixpoint lead_score (mv : byte) (b : bytes) : nat :=
  match b with
  | [] => 0
  | x :: b' => if Byte.eqb x mv then S (lead_score mv b') else 0
  end.

(** references/commit_adapter.go:35-70 (ToContent). *)
Definition commit_content (c : commit) : bytes :=
  put_u64 (c_time c) ++
  put_u64 (zlen (ht_content (c_values c))) ++ ht_content (c_values c) ++
  (match c_mine c with
   | Some m => byte_of_Z 0 :: put_u64 (zlen (big_bytes (m_proof m))) ++ big_bytes (m_proof m)
   | None => []
   end) ++
  (match c_parent c with
   | Some p => byte_of_Z 1 :: p
   | None => []
   end).

(** references/commits_adapter.go:27-44 (ToContent). *)
Definition commits_content (l : list commit) : bytes :=
  concat (map (fun c => put_u64 (zlen (commit_content c)) ++ commit_content c) l).

(** references/commits_builder.go:29-45 (Now). *)
Definition commits_now (l : list commit) : outcome (list commit) :=
  match l with [] => Err | _ => Ok l end.

(** commits.go:38-46 (Fetch) over the map of commits_builder.go:38-42. *)
Fixpoint commits_find (l : list commit) (h : bytes) (acc : option commit) : option commit :=
  match l with
  | [] => acc
  | c :: rest => commits_find rest h (if bytes_eqb (c_hash c) h then Some c else acc)
  end.

Definition commits_fetch (l : list commit) (h : bytes) : outcome commit :=
  match commits_find l h None with Some c => Ok c | None => Err end.

(** commits.go:33-35 (Latest): [list[len-1]] panics on the empty list. *)
Definition commits_latest (l : list commit) : outcome commit :=
  match rev l with [] => Panic | c :: _ => Ok c end.

(** reference.go:3-18. Both parts are never nil (builder.go:39-49). *)
Record reference : Type := Reference { r_keys : list content_key; r_commits : list commit }.

(** adapter.go:29-52 (ToContent). *)
Definition reference_content (r : reference) : bytes :=
  put_u64 (zlen (keys_content (r_keys r))) ++ keys_content (r_keys r) ++
  put_u64 (zlen (commits_content (r_commits r))) ++ commits_content (r_commits r).

Section WithSha2.
  Variable H : bytes -> bytes.
  (** The byte given to NewCommitBuilder. *)
  Variable mv : byte.

  (** references/contentkey_adapter.go:54-86 (ToContentKey). *)
  Definition key_of_content (s : gslice) : outcome content_key :=
    if negb (s_len s =? content_key_size)%Z then Err
    else
      do hd <- s_slice s 0 64;
      do kb <- s_slice s 64 72;
      do kind <- get_u64 kb;
      do pb <- s_slice s 72 88;
      do p <- pointer_of_content pb;
      do cb <- s_slice s 88 152;
      Ok (ContentKey (from_bytes H (vis hd)) kind p (from_bytes H (vis cb))).

  (** references/contentkeys_adapter.go:57-66: the loop of ToContentKeys; [begins] is
      8 + i*contentKeySize. It stops as soon as it passes the capacity,
      so the arithmetic does not overflow. *)
  Fixpoint keys_loop (n : nat) (s : gslice) (begins : Z) : outcome (list content_key) :=
    match n with
    | O => Ok []
    | S n' =>
      do ks <- s_slice s begins (begins + content_key_size);
      do k <- key_of_content ks;
      do l <- keys_loop n' s (begins + content_key_size);
      Ok (k :: l)
    end.

  (** references/contentkeys_adapter.go:48-69 (ToContentKeys).
      The loop count is clipped to capacity + 1: more iterations panic anyway (keys_loop_clip). *)
  Definition keys_of_content (s : gslice) : outcome (list content_key) :=
    if (s_len s <? 8 + content_key_size)%Z then Err
    else
      do lb <- s_slice s 0 8;
      do z <- get_u64 lb;
      do l <- keys_loop (Z.to_nat (Z.min (i64 z) (s_cap s + 1))) s 8;
      keys_now l.

  (** references/commit_builder.go:71-137 (Now) with values and creation time set. *)
  Definition commit_now (values : hashtree) (time : Z) (parent : option bytes) (proof : option Z) : commit :=
    let data := [ht_head values; dec_string time] ++
                (match parent with Some p => [p] | None => [] end) ++
                (match proof with Some z => [big_bytes z] | None => [] end) in
    let hash := from_multi H data in
    let mn := match proof with
              | Some z =>
                let result := from_multi H [hash; big_bytes z] in
                Some (Mine result z (lead_score mv result))
              | None => None
              end in
    Commit hash values time parent mn.

  (** references/commit_adapter.go:73-120 (ToCommit). *)
  Definition commit_of_content (s : gslice) : outcome commit :=
    if (s_len s <? commit_min_size)%Z then Err
    else
      do tb <- s_slice s 0 8;
      do tz <- get_u64 tb;
      do vb <- s_slice s 8 16;
      do vn <- get_u64 vb;
      let vdelim := i64 (16 + i64 vn) in
      do vs <- s_slice s 16 vdelim;
      do values <- ht_of_content H vs;
      do remaining <- s_from s vdelim;
      do pr <-
        (if (0 <? s_len remaining)%Z then
           do fb <- s_slice remaining 0 1;
           match vis fb with
           | [] => Panic
           | x :: _ =>
             if Byte.eqb x (byte_of_Z 0) then
               do rem1 <- s_from remaining 1;
               do lb <- s_slice rem1 0 8;
               do n <- get_u64 lb;
               let pdelim := i64 (8 + i64 n) in
               do pb <- s_slice rem1 8 pdelim;
               do rem2 <- s_from rem1 pdelim;
               Ok (Some (big_set (vis pb)), rem2)
             else Ok (None, remaining)
           end
         else Ok (None, remaining));
      do parent <-
        (if (0 <? s_len (snd pr))%Z then
           do hb <- s_from (snd pr) 1;
           Ok (Some (from_bytes H (vis hb)))
         else Ok None);
      Ok (commit_now values (i64 tz) parent (fst pr)).

  (** references/commits_adapter.go:56-72: the loop of ToCommits. *)
  Fixpoint commits_loop (fuel : nat) (s : gslice) (index : Z) : outcome (list commit) :=
    match fuel with
    | O => Fuel
    | S fuel' =>
      do r <- s_from s index;
      if (s_len r <=? 0)%Z then Ok []
      else
        do lb <- s_slice s index (index + 8);
        do n <- get_u64 lb;
        let delim := i64 (index + 8 + i64 n) in
        do cs <- s_slice s (index + 8) delim;
        do c <- commit_of_content cs;
        do l <- commits_loop fuel' s delim;
        Ok (c :: l)
    end.

  (** references/commits_adapter.go:47-75 (ToCommits). *)
  Definition commits_of_content (s : gslice) : outcome (list commit) :=
    if (s_len s <? 8 + commit_min_size)%Z then Err
    else
      do l <- commits_loop (slice_fuel s) s 0;
      commits_now l.

  (** references/adapter.go:55-92 (ToReference). *)
  Definition reference_of_content (s : gslice) : outcome reference :=
    if (s_len s <? min_reference_size)%Z then Err
    else
      do lb <- s_slice s 0 8;
      do n <- get_u64 lb;
      let kdelim := i64 (n + 8) in
      if (s_len s <? kdelim)%Z then Err
      else
        do ks <- s_slice s 8 kdelim;
        do keys <- keys_of_content ks;
        do cb <- s_slice s kdelim (kdelim + 8);
        do m <- get_u64 cb;
        let cdelim := i64 (m + (kdelim + 8)) in
        if (s_len s <? cdelim)%Z then Err
        else
          do cs <- s_slice s (kdelim + 8) cdelim;
          do commits <- commits_of_content cs;
          Ok (Reference keys commits).
End WithSha2.

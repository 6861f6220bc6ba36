(* What the PAWCS model should keep and decide. *)
From Coq Require Import ZArith QArith Qround List Bool Sorting.Permutation.
From Verif Require Import Lib.Grid Model.Sampling Model.Lbsp Spec.Lbsp Spec.Vibe Spec.Distances Model.Lobster Spec.Lobster Model.WordDict Model.Pawcs.
Import ListNotations.
Open Scope Z_scope.

(* ---- dictionaries *)
(* the word a place of a dictionary shows *)
Definition shown {A} (m : store A) (t : Z) : option A := match slot m t with Some p => Some (cells m (snd p)) | None => None end.
(* every place points to a word there is, no two to the same one, and every word is pointed to *)
Record well_kept {A} (m : store A) (cnt : Z) : Prop := {
  k_size : live m = cnt /\ len m = cnt;
  k_slots : forall t, 0 <= t < cnt -> exists a, slot m t = Some (block m, a) /\ 0 <= a < cnt;
  k_alone : forall t u p, 0 <= t < cnt -> 0 <= u < cnt -> slot m t = Some p -> slot m u = Some p -> t = u;
  k_used : forall a, 0 <= a < cnt -> exists t, 0 <= t < cnt /\ slot m t = Some (block m, a) }.
(* the words from a place on *)
Definition listed (m : store word) (b : Z) (ws : list word) : Prop := forall x w, nth_error ws x = Some w -> shown m (b + Z.of_nat x) = Some w.
Record valid_word (k now : Z) (w : word) : Prop := {
  v_colour : Z.of_nat (length (colour w)) = k /\ Forall (fun x => 0 <= x <= 255) (colour w);
  v_tex : Z.of_nat (length (tex w)) = k /\ Forall (fun x => 0 <= x < 2 ^ 16) (tex w);
  v_dates : 0 <= first w <= latest w /\ latest w <= now;
  v_occ : 0 <= occ w }.

(* ---- what a user may do *)
Definition usable (c : config) : Prop := (ch c = 1 \/ ch c = 3) /\ (0 < most c)%nat /\ (0 < globals c)%nat /\ 0 <= minc c.
Definition allowed (e : event) : Prop := match e with Frame img ov _ _ _ => byte_image img /\ ov < 2 ^ 64 /\ ov <> 2 ^ 63 | Refresh base _ _ => 0 <= base end.
Definition count_frames (l : list event) : Z := Z.of_nat (length (filter (fun e => match e with Frame _ _ _ _ _ => true | _ => false end) l)).

(* an object that was never initialized; the region it is given; what was done since *)
Definition begun (c : config) (rnd : nat -> Z) (sz : Z * Z) (img : Z -> Z) (sc : scene) (st : state) : Prop :=
  usable c /\ (forall k, 0 <= rnd k) /\ byte_image img /\ exists auto0 u current given, initialize c rnd (nothing no_word, nothing no_gword, auto0, u) current given sz img = Done (sc, st).
Definition reached (c : config) (rnd : nat -> Z) (sz : Z * Z) (img : Z -> Z) (sc : scene) (l : list event) (st : state) : Prop :=
  exists st0, begun c rnd sz img sc st0 /\ 8 <= avgs c /\ Forall allowed l /\ play c rnd sc l st0 = Done st.


(* ---- distances *)
Definition total (k : Z) (f : Z -> Z) : Z := fold_right Z.add 0 (map f (zrange 0 k)).
(* colour distortion: the square root of what is left of the first colour after projection on the second, rounded *)
Definition chroma (v w : list Z) (r : Z) : Prop :=
  (v = w \/ (grey v /\ grey w) -> r = 0) /\
  (v <> w -> ~ (grey v /\ grey w) -> exists X, residual_ceil v w X /\ 0 <= r /\ r * r <= X < (r + 1) * (r + 1)).
(* the sum of the channels is kept in 8 bits *)
Definition apart (k : Z) (v w : list Z) (d : Z) : Prop :=
  if k =? 1 then d = sum_abs_diff v w else exists r, chroma v w r /\ d = (sum_abs_diff v w mod 256) / 2 + 4 * r.
Definition pixel_of (k : Z) (size : Z * Z) (img : Z -> Z) (p : Z * Z) : list Z := map (value k size img p) (zrange 0 k).
(* neighbours that do not compare with the pixel as the word says, and those that do not compare so with the colour of the word *)
Definition own_texture (k : Z) (lut : Z -> Z) (size : Z * Z) (img : Z -> Z) (p : Z * Z) (w : word) : Z :=
  total k (fun x => let v := value k size img p x in mismatch (Spec.Lobster.around k size img p x) v (lut v) (nth (Z.to_nat x) (tex w) 0)).
Definition cross_texture (k : Z) (lut : Z -> Z) (size : Z * Z) (img : Z -> Z) (p : Z * Z) (w : word) : Z :=
  total k (fun x => let v := nth (Z.to_nat x) (colour w) 0 in mismatch (Spec.Lobster.around k size img p x) v (lut v) (nth (Z.to_nat x) (tex w) 0)).
(* neighbours that differ much from the pixel *)
Definition contrast (k : Z) (lut : Z -> Z) (size : Z * Z) (img : Z -> Z) (p : Z * Z) : Z :=
  total k (fun x => let v := value k size img p x in count (fun y => lut v <? Z.abs (y - v)) (Spec.Lobster.around k size img p x)).
(* the limits of a pixel: the root of its radius times the colour threshold; 2 to the radius and the descriptor offset, twice if unstable *)
Definition limits (c : config) (p : Subsense.pixel) (lc lt : Z) : Prop := exists r z,
  0 <= r /\ (inject_Z (r * r) <= Subsense.radius p * inject_Z (minc c * minc c) < inject_Z ((r + 1) * (r + 1)))%Q /\
  z < 64 /\ (inject_Z z <= Subsense.radius p + (1 # 2) < inject_Z (z + 1))%Q /\
  let d := 2 ^ z + (if Subsense.unstable p then 2 * doff c else doff c) in
  if ch c =? 1 then lc = r / 2 /\ lt = d mod 2 ^ 64 else lc = 3 * r /\ lt = 3 * d mod 2 ^ 64.
Definition fits (k : Z) (lut : Z -> Z) (size : Z * Z) (img : Z -> Z) (p : Z * Z) (lc lt : Z) (w : word) : Prop :=
  (exists d, apart k (pixel_of k size img p) (colour w) d /\ d <= lc) /\ (own_texture k lut size img p w + cross_texture k lut size img p w) / 2 <= lt.
(* occurrences per frame of age, the frames since the last one counted twice *)
Definition heft (now off : Z) (w : word) : Q := (inject_Z (occ w) / inject_Z (latest w - first w + 2 * (now - latest w) + off))%Q.
Definition support (now off : Z) (f : word -> bool) (ws : list word) : Q := fold_right (fun w x => (if f w then heft now off w else 0) + x)%Q 0%Q ws.
Definition resembles (k : Z) (v : list Z) (bits lc lt : Z) (g : gword) : Prop := (exists d, apart k (gcol g) v d /\ d <= lc) /\ Z.abs (bits - gbits g) <= lt / 4.
(* what a global word adds where pixel i is *)
Definition adds (sc : scene) (i : Z) (flat : bool) (g : gword) (y : Q) : Prop := exists m, gmap g = Some m /\
  let q := point (size sc) i in y = (m ((snd q / 2) * (fst (size sc) / 2) + fst q / 2)%Z / (if flat then 2 else 4))%Q.
(* the word is of this pixel *)
Record portrait (k : Z) (lut : Z -> Z) (size : Z * Z) (img : Z -> Z) (p : Z * Z) (v e : list Z) : Prop := {
  o_colour : v = pixel_of k size img p;
  o_tex : Z.of_nat (length e) = k /\ forall x, 0 <= x < k -> 0 <= nth (Z.to_nat x) e 0 < 2 ^ 16 /\
          mismatch (Spec.Lobster.around k size img p x) (value k size img p x) (lut (value k size img p x)) (nth (Z.to_nat x) e 0) = 0 }.

(* ---- what a pixel decides and learns; [b] is the place of its first word *)
Section Step.
  Context (c : config) (sc : scene) (img : Z -> Z) (p : Z * Z) (b : Z) (st : state).
  Let k := ch c. Let sz := size sc. Let i := place sz p. Let now := frame (lev st). Let off := woff (lev st). Let R := Subsense.radius (px st i).
  Let flat : bool := contrast k (lut (lev st)) sz img p <? (if k =? 1 then 2 else 4).

  (* its words, its limits and the words it fits *)
  Record view (ws : list word) (lc lt : Z) (f : word -> bool) : Prop := {
    w_words : length ws = locals c /\ listed (dict st) b ws;
    w_limits : limits c (px st i) lc lt;
    w_fits : forall w, In w ws -> f w = true <-> fits k (lut (lev st)) sz img p lc lt w }.
  Definition goal_of (ws : list word) : Q := match ws with [] => 0%Q | w :: _ => (heft now off w / (R * 2))%Q end.
  Definition enough (ws : list word) (f : word -> bool) : Prop := (goal_of ws <= support now off f ws)%Q.
  (* a global word resembles the pixel, and the words and what it adds are enough *)
  Definition excused (ws : list word) (lc lt : Z) (f : word -> bool) (a : Z) : Prop :=
    resembles k (pixel_of k sz img p) (contrast k (lut (lev st)) sz img p) lc lt (cells (glob st) a) /\
    exists y, adds sc i flat (cells (glob st) a) y /\ (goal_of ws <= support now off f ws + y)%Q.
  Record decision (ws : list word) (lc lt : Z) (f : word -> bool) (fg : bool) : Prop := {
    d_back : enough ws f \/ roi sc i < 255 -> fg = false;
    d_why : fg = false -> enough ws f \/ roi sc i < 255 \/ exists a, 0 <= a < Z.of_nat (globals c) /\ excused ws lc lt f a;
    d_flat : flat = true -> (exists a, 0 <= a < Z.of_nat (globals c) /\ resembles k (pixel_of k sz img p) (contrast k (lut (lev st)) sz img p) lc lt (cells (glob st) a)) ->
             (forall a, 0 <= a < Z.of_nat (globals c) -> resembles k (pixel_of k sz img p) (contrast k (lut (lev st)) sz img p) lc lt (cells (glob st) a) -> excused ws lc lt f a) -> fg = false }.

  Let gain := (1 + cool (lev st)) * (if flat || (now <=? 500) then 2 else 1).
  (* a word before and after it was compared *)
  Record compared (lc lt : Z) (f : word -> bool) (w w' : word) : Prop := {
    c_first : first w' = first w;
    c_look : (colour w' = colour w /\ tex w' = tex w) \/
             (portrait k (lut (lev st)) sz img p (colour w') (tex w') /\ (exists d, apart k (pixel_of k sz img p) (colour w) d /\ d <= lc) /\ own_texture k (lut (lev st)) sz img p w <= lt / 2);
    c_count : (latest w' = latest w /\ occ w' = occ w) \/ (f w = true /\ latest w' = now /\ (occ w' = occ w \/ occ w' = occ w + gain)) }.
  Definition new_word (w : word) : Prop := portrait k (lut (lev st)) sz img p (colour w) (tex w) /\ first w = now /\ latest w = now /\ occ w = gain.
  (* a word of the neighbour before and after *)
  Record nudged (w w' : word) : Prop := {
    n_first : first w' = first w;
    n_colour : colour w' = colour w \/ colour w' = pixel_of k sz img p;
    n_tex : tex w' = tex w \/ portrait k (lut (lev st)) sz img p (pixel_of k sz img p) (tex w');
    n_latest : latest w' = latest w \/ latest w' = now;
    n_occ : occ w <= occ w';
    n_grey : k = 1 -> w' = w }.
  Let N := Z.of_nat (length (pxs sc)) * Z.of_nat (locals c).
  Let last := b + Z.of_nat (locals c) - 1.
  (* the words are compared and change places, a word of least weight is last; the last one may become the pixel; then the words of one neighbour change *)
  Record learning (ws : list word) (lc lt : Z) (f : word -> bool) (fg : bool) (st' : state) : Prop := {
    l_steps : exists prs low (own now_own : Z -> option word),
      Permutation (map fst (prs ++ [low])) ws /\ Forall (fun x => compared lc lt f (fst x) (snd x)) (prs ++ [low]) /\
      Forall (fun x => heft now off (fst low) <= heft now off (fst x))%Q prs /\
      (forall x w, nth_error (map snd (prs ++ [low])) x = Some w -> own (b + Z.of_nat x) = Some w) /\
      (forall t, 0 <= t < N -> ~ (b <= t <= last) -> own t = shown (dict st) t) /\
      ((forall t, now_own t = own t) \/
       (~ enough ws f /\ 255 <= roi sc i /\ (support now off f ws < 1 / inject_Z off)%Q /\ (exists w, now_own last = Some w /\ new_word w) /\ forall t, 0 <= t < N -> t <> last -> now_own t = own t)) /\
      ((forall t, 0 <= t < N -> shown (dict st') t = now_own t) \/
       exists q j, inner sz q /\ within 2 q p /\ nth_error (pxs sc) j = Some (place sz q) /\
         let bq := Z.of_nat j * Z.of_nat (locals c) in
         (fg = true -> moving (lev st) = true) /\
         (forall t, 0 <= t < N -> ~ (bq <= t < bq + Z.of_nat (locals c)) -> shown (dict st') t = now_own t) /\
         (forall t, bq <= t < bq + Z.of_nat (locals c) -> exists w w', now_own t = Some w /\ shown (dict st') t = Some w' /\
            (nudged w w' \/ (t = bq + Z.of_nat (locals c) - 1 /\ new_word w'))));
    l_same : lev st' = lev st /\ order st' = order st;
    l_glob : fg = true -> glob st' = glob st;
    l_seen : forall q x, in_image sz q -> 0 <= x < k -> seen st' (place sz q * k + x) = if place sz q =? i then value k sz img p x else seen st (place sz q * k + x) }.
End Step.
Definition step (c : config) (sc : scene) (img : Z -> Z) (ji : Z * Z) (st : state) (fg : bool) (st' : state) : Prop := exists p ws lc lt f,
  inner (size sc) p /\ snd ji = place (size sc) p /\ view c sc img p (fst ji * Z.of_nat (locals c)) st ws lc lt f /\
  decision c sc img p st ws lc lt f fg /\ learning c sc img p (fst ji * Z.of_nat (locals c)) st ws lc lt f fg st'.

(* a frame: the pixels of the region one after the other, and what they give *)
Inductive walk (R : Z * Z -> state -> bool -> state -> Prop) : list (Z * Z) -> state -> list (Z * bool) -> state -> Prop :=
| walk_nil st : walk R [] st [] st
| walk_next l st m st1 ji fg st2 : walk R l st m st1 -> R ji st1 fg st2 -> walk R (l ++ [ji]) st (m ++ [(snd ji, fg)]) st2.

(* ---- what is kept for a pixel after [n] frames *)
Record in_bounds (n : Z) (p : Subsense.pixel) : Prop := {
  b_rate : (1 <= Subsense.rate p <= 256)%Q;
  b_modulator : ((1 # 10) <= Subsense.modulator p <= 10 + inject_Z (n + Z.min n 500))%Q;
  b_radius : (1 <= Subsense.radius p <= 10 + inject_Z (n + Z.min n 500) / 100)%Q;
  b_means : Forall (fun x => 0 <= x <= 1)%Q [Subsense.min_lt p; Subsense.min_st p; Subsense.raw_lt p; Subsense.raw_st p; Subsense.final_lt p; Subsense.final_st p] }.
(* ---- the thresholds of textures: bytes, not below the first ones and a quarter of what is asked for, not above the first ones and that for white *)
Definition table (c : config) (lut : Z -> Z) : Prop := forall t, 0 <= t <= 255 ->
  let full := (inject_Z t * rel c + inject_Z (offset c))%Q in
  let byte := fun x => sat_uchar (half_even x) in
  Z.min (byte (if ch c =? 1 then full / 3 else full)%Q) (byte (full / 4)%Q) <= lut t <= Z.max (byte (if ch c =? 1 then full / 3 else full)%Q) (byte (255 * rel c + inject_Z (offset c))%Q).
(* ---- background images: q is the mean of a value over words, weighted *)
Definition average (now off : Z) (val : word -> Z) (ws : list word) (q : Q) : Prop :=
  (q * fold_right (fun w x => heft now off w + x) 0 ws == fold_right (fun w x => inject_Z (val w) * heft now off w + x) 0 ws)%Q.

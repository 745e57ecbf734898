(** * Tables: the character tables of src/parser/tables.rs.

    Generated by tools/gen_tables.py from the text of /repo. *)

From Coq Require Import List NArith ZArith Bool.
From Verif Require Import Base Float32 Event.
Import ListNotations.
Open Scope N_scope.

(** Membership in a list of closed ranges. *)
Fixpoint in_ranges (c : char) (l : list (N * N)) : bool :=
  match l with
  | [] => false
  | (a, b) :: l' => ((a <=? c) && (c <=? b)) || in_ranges c l'
  end.

(** First entry of an association list keyed by characters. *)
Fixpoint assoc_char {A} (c : char) (l : list (char * A)) : option A :=
  match l with
  | [] => None
  | (k, v) :: l' => if k =? c then Some v else assoc_char c l'
  end.

(** First entry of an association list keyed by strings: a [match] on [&str]. *)
Fixpoint assoc_str {A} (s : str) (l : list (str * A)) : option A :=
  match l with
  | [] => None
  | (k, v) :: l' => if str_eqb k s then Some v else assoc_str s l'
  end.

(** [is_binary]. (src/parser/tables.rs:8-36) *)
Definition is_binary_ranges : list (N * N) := [
  (43, 43); (47, 47); (177, 177); (92, 92); (183, 183); (215, 215); (247, 247); (8226, 8226);
  (8256, 8256); (8260, 8260); (8270, 8270); (8289, 8289); (8290, 8290); (8723, 8723); (8724, 8724); (8725, 8725);
  (8726, 8726); (8727, 8727); (8728, 8728); (8729, 8729); (8743, 8743); (8744, 8744); (8745, 8745); (8746, 8746);
  (8760, 8760); (8766, 8766); (8768, 8768); (8844, 8844); (8845, 8845); (8846, 8846); (8851, 8851); (8852, 8852);
  (8853, 8853); (8854, 8854); (8855, 8855); (8856, 8856); (8857, 8857); (8858, 8858); (8859, 8859); (8860, 8860);
  (8861, 8861); (8862, 8862); (8863, 8863); (8864, 8864); (8865, 8865); (8889, 8889); (8890, 8890); (8891, 8891);
  (8892, 8892); (8893, 8893); (8900, 8900); (8901, 8901); (8902, 8902); (8903, 8903); (8905, 8905); (8906, 8906);
  (8907, 8907); (8908, 8908); (8910, 8910); (8911, 8911); (8914, 8914); (8915, 8915); (8965, 8965); (8966, 8966);
  (9021, 9021); (9650, 9650); (9651, 9651); (9652, 9652); (9653, 9653); (9654, 9654); (9655, 9655); (9656, 9656);
  (9657, 9657); (9660, 9660); (9661, 9661); (9662, 9662); (9663, 9663); (9664, 9664); (9665, 9665); (9666, 9666);
  (9667, 9667); (9668, 9668); (9669, 9669); (9674, 9674); (9675, 9675); (9702, 9702); (9707, 9707); (9708, 9708);
  (9720, 9720); (9721, 9721); (9722, 9722); (9723, 9723); (9724, 9724); (9725, 9725); (9726, 9726); (9727, 9727);
  (9733, 9733); (9734, 9734); (10190, 10190); (10191, 10191); (10193, 10193); (10208, 10208); (10209, 10209); (10210, 10210);
  (10211, 10211); (10678, 10678); (10679, 10679); (10680, 10680); (10681, 10681); (10688, 10688); (10689, 10689); (10692, 10692);
  (10693, 10693); (10694, 10694); (10695, 10695); (10696, 10696); (10212, 10212); (10213, 10213); (10710, 10710); (10711, 10711);
  (10722, 10722); (10731, 10731); (10741, 10741); (10742, 10742); (10743, 10743); (10746, 10746); (10747, 10747); (10750, 10750);
  (10751, 10751); (10786, 10786); (10787, 10787); (10788, 10788); (10789, 10789); (10790, 10790); (10791, 10791); (10792, 10792);
  (10793, 10793); (10794, 10794); (10795, 10795); (10796, 10796); (10797, 10797); (10798, 10798); (10799, 10799); (10800, 10800);
  (10801, 10801); (10802, 10802); (10803, 10803); (10804, 10804); (10805, 10805); (10806, 10806); (10807, 10807); (10808, 10808);
  (10809, 10809); (10810, 10810); (10811, 10811); (10812, 10812); (10813, 10813); (10814, 10814); (10815, 10815); (10816, 10816);
  (10817, 10817); (10818, 10818); (10819, 10819); (10820, 10820); (10821, 10821); (10822, 10822); (10823, 10823); (10824, 10824);
  (10825, 10825); (10826, 10826); (10827, 10827); (10828, 10828); (10829, 10829); (10830, 10830); (10831, 10831); (10832, 10832);
  (10833, 10833); (10834, 10834); (10835, 10835); (10836, 10836); (10837, 10837); (10838, 10838); (10839, 10839); (10840, 10840);
  (10865, 10865); (10866, 10866); (10996, 10996); (10997, 10997); (10998, 10998); (11003, 11003); (11005, 11005); (11006, 11006)].
Definition is_binary (c : char) : bool := in_ranges c is_binary_ranges.

(** [is_relation]. (src/parser/tables.rs:39-108) *)
Definition is_relation_ranges : list (N * N) := [
  (58, 58); (60, 60); (61, 61); (62, 62); (8224, 8224); (8225, 8225); (8271, 8271); (8272, 8272);
  (8592, 8627); (8630, 8630); (8631, 8631); (8634, 8703); (8712, 8712); (8713, 8713); (8714, 8714); (8715, 8715);
  (8716, 8716); (8717, 8717); (8733, 8733); (8739, 8739); (8740, 8740); (8741, 8741); (8742, 8742); (8756, 8756);
  (8757, 8757); (8758, 8758); (8759, 8759); (8761, 8761); (8762, 8762); (8763, 8763); (8764, 8764); (8765, 8765);
  (8769, 8769); (8770, 8770); (8771, 8771); (8772, 8772); (8773, 8773); (8774, 8774); (8775, 8775); (8776, 8776);
  (8777, 8777); (8778, 8778); (8779, 8779); (8780, 8780); (8781, 8781); (8782, 8782); (8783, 8783); (8784, 8784);
  (8785, 8785); (8786, 8786); (8787, 8787); (8788, 8788); (8789, 8789); (8790, 8790); (8791, 8791); (8792, 8792);
  (8793, 8793); (8794, 8794); (8795, 8795); (8796, 8796); (8797, 8797); (8798, 8798); (8799, 8799); (8800, 8800);
  (8801, 8801); (8802, 8802); (8803, 8803); (8804, 8804); (8805, 8805); (8806, 8806); (8807, 8807); (8808, 8808);
  (8809, 8809); (8810, 8810); (8811, 8811); (8812, 8812); (8813, 8813); (8814, 8814); (8815, 8815); (8816, 8816);
  (8817, 8817); (8818, 8818); (8819, 8819); (8820, 8820); (8821, 8821); (8822, 8822); (8823, 8823); (8824, 8824);
  (8825, 8825); (8826, 8826); (8827, 8827); (8828, 8828); (8829, 8829); (8830, 8830); (8831, 8831); (8832, 8832);
  (8833, 8833); (8834, 8834); (8835, 8835); (8836, 8836); (8837, 8837); (8838, 8838); (8839, 8839); (8840, 8840);
  (8841, 8841); (8842, 8842); (8843, 8843); (8847, 8847); (8848, 8848); (8849, 8849); (8850, 8850); (8866, 8866);
  (8867, 8867); (8869, 8869); (8870, 8870); (8871, 8871); (8872, 8872); (8873, 8873); (8874, 8874); (8875, 8875);
  (8876, 8876); (8877, 8877); (8878, 8878); (8879, 8879); (8880, 8880); (8881, 8881); (8882, 8882); (8883, 8883);
  (8884, 8884); (8885, 8885); (8886, 8886); (8887, 8887); (8888, 8888); (8904, 8904); (8909, 8909); (8912, 8912);
  (8913, 8913); (8916, 8916); (8917, 8917); (8918, 8918); (8919, 8919); (8920, 8920); (8921, 8921); (8922, 8922);
  (8923, 8923); (8924, 8924); (8925, 8925); (8926, 8926); (8927, 8927); (8928, 8928); (8929, 8929); (8930, 8930);
  (8931, 8931); (8932, 8932); (8933, 8933); (8934, 8934); (8935, 8935); (8936, 8936); (8937, 8937); (8938, 8938);
  (8939, 8939); (8940, 8940); (8941, 8941); (8942, 8942); (8943, 8943); (8944, 8944); (8945, 8945); (8946, 8946);
  (8947, 8947); (8948, 8948); (8949, 8949); (8950, 8950); (8951, 8951); (8952, 8952); (8953, 8953); (8954, 8954);
  (8955, 8955); (8956, 8956); (8957, 8957); (8958, 8958); (8959, 8959); (8994, 8994); (8995, 8995); (9023, 9023);
  (9084, 9084); (9136, 9136); (9137, 9137); (10178, 10178); (10179, 10179); (10180, 10180); (10181, 10181); (10182, 10182);
  (10183, 10183); (10184, 10184); (10185, 10185); (10186, 10186); (10187, 10187); (10189, 10189); (10194, 10194); (10195, 10195);
  (10196, 10196); (10202, 10202); (10203, 10203); (10204, 10204); (10205, 10205); (10206, 10206); (10207, 10207); (10224, 10224);
  (10225, 10225); (10226, 10226); (10227, 10227); (10228, 10228); (10229, 10229); (10230, 10230); (10231, 10231); (10232, 10232);
  (10233, 10233); (10234, 10234); (10235, 10235); (10236, 10236); (10237, 10237); (10238, 10238); (10239, 10239); (10496, 10496);
  (10497, 10497); (10498, 10498); (10499, 10499); (10500, 10500); (10501, 10501); (10502, 10502); (10503, 10503); (10504, 10504);
  (10505, 10505); (10506, 10506); (10507, 10507); (10508, 10508); (10509, 10509); (10510, 10510); (10511, 10511); (10512, 10512);
  (10513, 10513); (10514, 10514); (10515, 10515); (10516, 10516); (10517, 10517); (10518, 10518); (10519, 10519); (10520, 10520);
  (10521, 10521); (10522, 10522); (10523, 10523); (10524, 10524); (10525, 10525); (10526, 10526); (10527, 10527); (10528, 10528);
  (10529, 10529); (10530, 10530); (10531, 10531); (10532, 10532); (10533, 10533); (10534, 10534); (10535, 10535); (10536, 10536);
  (10537, 10537); (10538, 10538); (10539, 10539); (10540, 10540); (10541, 10541); (10542, 10542); (10543, 10543); (10544, 10544);
  (10545, 10545); (10546, 10546); (10547, 10547); (10548, 10548); (10549, 10549); (10550, 10550); (10551, 10551); (10552, 10552);
  (10553, 10553); (10554, 10554); (10555, 10555); (10556, 10556); (10557, 10557); (10558, 10558); (10559, 10559); (10560, 10560);
  (10561, 10561); (10562, 10562); (10563, 10563); (10564, 10564); (10565, 10565); (10566, 10566); (10567, 10567); (10568, 10568);
  (10569, 10569); (10570, 10570); (10571, 10571); (10572, 10572); (10573, 10573); (10574, 10574); (10575, 10575); (10576, 10576);
  (10577, 10577); (10578, 10578); (10579, 10579); (10580, 10580); (10581, 10581); (10582, 10582); (10583, 10583); (10584, 10584);
  (10585, 10585); (10586, 10586); (10587, 10587); (10588, 10588); (10589, 10589); (10590, 10590); (10591, 10591); (10592, 10592);
  (10593, 10593); (10594, 10594); (10595, 10595); (10596, 10596); (10597, 10597); (10598, 10598); (10599, 10599); (10600, 10600);
  (10601, 10601); (10602, 10602); (10603, 10603); (10604, 10604); (10605, 10605); (10606, 10606); (10607, 10607); (10608, 10608);
  (10609, 10609); (10610, 10610); (10611, 10611); (10612, 10612); (10613, 10613); (10614, 10614); (10615, 10615); (10616, 10616);
  (10617, 10617); (10618, 10618); (10619, 10619); (10620, 10620); (10621, 10621); (10622, 10622); (10623, 10623); (10702, 10702);
  (10703, 10703); (10704, 10704); (10705, 10705); (10706, 10706); (10707, 10707); (10708, 10708); (10709, 10709); (10719, 10719);
  (10721, 10721); (10723, 10723); (10724, 10724); (10725, 10725); (10726, 10726); (10740, 10740); (10841, 10841); (10854, 10854);
  (10855, 10855); (10856, 10856); (10857, 10857); (10858, 10858); (10859, 10859); (10860, 10860); (10861, 10861); (10862, 10862);
  (10863, 10863); (10864, 10864); (10867, 10867); (10868, 10868); (10869, 10869); (10870, 10870); (10871, 10871); (10872, 10872);
  (10873, 10873); (10874, 10874); (10875, 10875); (10876, 10876); (10877, 10877); (10878, 10878); (10879, 10879); (10880, 10880);
  (10881, 10881); (10882, 10882); (10883, 10883); (10884, 10884); (10885, 10885); (10886, 10886); (10887, 10887); (10888, 10888);
  (10889, 10889); (10890, 10890); (10891, 10891); (10892, 10892); (10893, 10893); (10894, 10894); (10895, 10895); (10896, 10896);
  (10897, 10897); (10898, 10898); (10899, 10899); (10900, 10900); (10901, 10901); (10902, 10902); (10903, 10903); (10904, 10904);
  (10905, 10905); (10906, 10906); (10907, 10907); (10908, 10908); (10909, 10909); (10910, 10910); (10911, 10911); (10912, 10912);
  (10913, 10913); (10914, 10914); (10915, 10915); (10916, 10916); (10917, 10917); (10918, 10918); (10919, 10919); (10920, 10920);
  (10921, 10921); (10922, 10922); (10923, 10923); (10924, 10924); (10925, 10925); (10926, 10926); (10927, 10927); (10928, 10928);
  (10929, 10929); (10930, 10930); (10931, 10931); (10932, 10932); (10933, 10933); (10934, 10934); (10935, 10935); (10936, 10936);
  (10937, 10937); (10938, 10938); (10939, 10939); (10940, 10940); (10941, 10941); (10942, 10942); (10943, 10943); (10944, 10944);
  (10945, 10945); (10946, 10946); (10947, 10947); (10948, 10948); (10949, 10949); (10950, 10950); (10951, 10951); (10952, 10952);
  (10953, 10953); (10954, 10954); (10955, 10955); (10956, 10956); (10957, 10957); (10958, 10958); (10959, 10959); (10960, 10960);
  (10961, 10961); (10962, 10962); (10963, 10963); (10964, 10964); (10965, 10965); (10966, 10966); (10967, 10967); (10968, 10968);
  (10969, 10969); (10970, 10970); (10971, 10971); (10972, 10972); (10973, 10973); (10974, 10974); (10975, 10975); (10976, 10976);
  (10978, 10978); (10979, 10979); (10980, 10980); (10981, 10981); (10982, 10982); (10983, 10983); (10984, 10984); (10985, 10985);
  (10986, 10986); (10987, 10987); (10988, 10988); (10989, 10989); (10990, 10990); (10991, 10991); (10992, 10992); (10994, 10994);
  (10995, 10995); (10999, 10999); (11000, 11000); (11001, 11001); (11002, 11002); (11157, 11157); (11008, 11025); (11056, 11076);
  (11077, 11077); (11078, 11078); (11079, 11084)].
Definition is_relation (c : char) : bool := in_ranges c is_relation_ranges.

(** [char_delimiter_map]. (src/parser/tables.rs:110-123) *)
Definition char_delims : list (char * delim_type) := [
  (40, DOpen); (10631, DOpen); (10222, DOpen); (91, DOpen); (10214, DOpen); (10627, DOpen);
  (10216, DOpen); (10218, DOpen); (10633, DOpen); (8970, DOpen); (8968, DOpen); (9484, DOpen);
  (9492, DOpen); (9136, DOpen); (41, DClose); (10632, DClose); (10223, DClose); (93, DClose);
  (10215, DClose); (10628, DClose); (10217, DClose); (10219, DClose); (10634, DClose); (8971, DClose);
  (8969, DClose); (9488, DClose); (9496, DClose); (9137, DClose); (124, DFence); (8214, DFence);
  (8593, DFence); (8657, DFence); (8595, DFence); (8659, DFence); (8597, DFence); (8661, DFence);
  (47, DFence)].
Definition char_delimiter_map (c : char) : option (char * delim_type) :=
  match assoc_char c char_delims with Some ty => Some (c, ty) | None => None end.

(** [control_sequence_delimiter_map]. (src/parser/tables.rs:126-179) *)
Definition cs_delims : list (str * (char * delim_type)) := [
  (lit "lparen", (40, DOpen)); (lit "rparen", (41, DClose));
  (lit "llparenthesis", (10631, DOpen)); (lit "rrparenthesis", (10632, DClose));
  (lit "lgroup", (10222, DOpen)); (lit "rgroup", (10223, DClose));
  (lit "lbrack", (91, DOpen)); (lit "rbrack", (93, DClose));
  (lit "lBrack", (10214, DOpen)); (lit "rBrack", (10215, DClose));
  (lit "{", (123, DOpen)); (lit "lbrace", (123, DOpen));
  (lit "}", (125, DClose)); (lit "rbrace", (125, DClose));
  (lit "lBrace", (10627, DOpen)); (lit "rBrace", (10628, DClose));
  (lit "langle", (10216, DOpen)); (lit "rangle", (10217, DClose));
  (lit "lAngle", (10218, DOpen)); (lit "rAngle", (10219, DClose));
  (lit "llangle", (10633, DOpen)); (lit "rrangle", (10634, DClose));
  (lit "lfloor", (8970, DOpen)); (lit "rfloor", (8971, DClose));
  (lit "lceil", (8968, DOpen)); (lit "rceil", (8969, DClose));
  (lit "ulcorner", (9484, DOpen)); (lit "urcorner", (9488, DClose));
  (lit "llcorner", (9492, DOpen)); (lit "lrcorner", (9496, DClose));
  (lit "lmoustache", (9136, DOpen)); (lit "rmoustache", (9137, DClose));
  (lit "backslash", (92, DFence)); (lit "vert", (124, DFence));
  (lit "lvert", (124, DOpen)); (lit "rvert", (124, DClose));
  (lit "|", (8214, DFence)); (lit "Vert", (8214, DFence));
  (lit "lVert", (8214, DOpen)); (lit "rVert", (8214, DClose));
  (lit "uparrow", (8593, DFence)); (lit "Uparrow", (8657, DFence));
  (lit "downarrow", (8595, DFence)); (lit "Downarrow", (8659, DFence));
  (lit "updownarrow", (8597, DFence)); (lit "Updownarrow", (8661, DFence))].
Definition control_sequence_delimiter_map (cs : str) : option (char * delim_type) :=
  assoc_str cs cs_delims.

(** The table of [dvipsnames_color]. (src/parser/tables.rs:199-271) *)
Definition dvipsnames_color_table : list (str * rgb) := [
  (lit "Apricot", (251, 185, 130)); (lit "Aquamarine", (0, 181, 190));
  (lit "Bittersweet", (192, 79, 23)); (lit "Black", (34, 30, 31));
  (lit "Blue", (45, 47, 146)); (lit "BlueGreen", (0, 179, 184));
  (lit "BlueViolet", (71, 57, 146)); (lit "BrickRed", (182, 50, 28));
  (lit "Brown", (121, 37, 0)); (lit "BurntOrange", (247, 146, 29));
  (lit "CadetBlue", (116, 114, 154)); (lit "CarnationPink", (242, 130, 180));
  (lit "Cerulean", (0, 162, 227)); (lit "CornflowerBlue", (65, 176, 228));
  (lit "Cyan", (0, 174, 239)); (lit "Dandelion", (253, 188, 66));
  (lit "DarkOrchid", (164, 83, 138)); (lit "Emerald", (0, 169, 157));
  (lit "ForestGreen", (0, 155, 85)); (lit "Fuchsia", (140, 54, 140));
  (lit "Goldenrod", (255, 223, 66)); (lit "Gray", (148, 150, 152));
  (lit "Green", (0, 166, 79)); (lit "GreenYellow", (223, 230, 116));
  (lit "JungleGreen", (0, 169, 154)); (lit "Lavender", (244, 158, 196));
  (lit "LimeGreen", (141, 199, 62)); (lit "Magenta", (236, 0, 140));
  (lit "Mahogany", (169, 52, 31)); (lit "Maroon", (175, 50, 53));
  (lit "Melon", (248, 158, 123)); (lit "MidnightBlue", (0, 103, 149));
  (lit "Mulberry", (169, 60, 147)); (lit "NavyBlue", (0, 110, 184));
  (lit "OliveGreen", (60, 128, 49)); (lit "Orange", (245, 129, 55));
  (lit "OrangeRed", (237, 19, 90)); (lit "Orchid", (175, 114, 176));
  (lit "Peach", (247, 150, 90)); (lit "Periwinkle", (121, 119, 184));
  (lit "PineGreen", (0, 139, 114)); (lit "Plum", (146, 38, 143));
  (lit "ProcessBlue", (0, 176, 240)); (lit "Purple", (153, 71, 155));
  (lit "RawSienna", (151, 64, 6)); (lit "Red", (237, 27, 35));
  (lit "RedOrange", (242, 96, 53)); (lit "RedViolet", (161, 36, 107));
  (lit "Rhodamine", (239, 85, 159)); (lit "RoyalBlue", (0, 113, 188));
  (lit "RoyalPurple", (97, 63, 153)); (lit "RubineRed", (237, 1, 125));
  (lit "Salmon", (246, 146, 137)); (lit "SeaGreen", (63, 188, 157));
  (lit "Sepia", (103, 24, 0)); (lit "SkyBlue", (70, 197, 221));
  (lit "SpringGreen", (198, 220, 103)); (lit "Tan", (218, 157, 118));
  (lit "TealBlue", (0, 174, 179)); (lit "Thistle", (216, 131, 183));
  (lit "Turquoise", (0, 180, 206)); (lit "Violet", (88, 66, 155));
  (lit "VioletRed", (239, 88, 160)); (lit "White", (255, 255, 255));
  (lit "WildStrawberry", (238, 41, 103)); (lit "Yellow", (255, 242, 0));
  (lit "YellowGreen", (152, 204, 112)); (lit "YellowOrange", (250, 162, 26))].

(** The table of [primitive_color]. (src/parser/tables.rs:277-429) *)
Definition primitive_color_table : list (str * rgb) := [
  (lit "aliceblue", (240, 248, 255)); (lit "antiquewhite", (250, 235, 215));
  (lit "aqua", (0, 255, 255)); (lit "cyan", (0, 255, 255));
  (lit "aquamarine", (127, 255, 212)); (lit "azure", (240, 255, 255));
  (lit "beige", (245, 245, 220)); (lit "bisque", (255, 228, 196));
  (lit "black", (0, 0, 0)); (lit "blanchedalmond", (255, 235, 205));
  (lit "blue", (0, 0, 255)); (lit "blueviolet", (138, 43, 226));
  (lit "brown", (165, 42, 42)); (lit "burlywood", (222, 184, 135));
  (lit "cadetblue", (95, 158, 160)); (lit "chartreuse", (127, 255, 0));
  (lit "chocolate", (210, 105, 30)); (lit "coral", (255, 127, 80));
  (lit "cornflowerblue", (100, 149, 237)); (lit "cornsilk", (255, 248, 220));
  (lit "crimson", (220, 20, 60)); (lit "darkblue", (0, 0, 139));
  (lit "darkcyan", (0, 139, 139)); (lit "darkgoldenrod", (184, 134, 11));
  (lit "darkgray", (169, 169, 169)); (lit "darkgreen", (0, 100, 0));
  (lit "darkgrey", (169, 169, 169)); (lit "darkkhaki", (189, 183, 107));
  (lit "darkmagenta", (139, 0, 139)); (lit "darkolivegreen", (85, 107, 47));
  (lit "darkorange", (255, 140, 0)); (lit "darkorchid", (153, 50, 204));
  (lit "darkred", (139, 0, 0)); (lit "darksalmon", (233, 150, 122));
  (lit "darkseagreen", (143, 188, 143)); (lit "darkslateblue", (72, 61, 139));
  (lit "darkslategray", (47, 79, 79)); (lit "darkslategrey", (47, 79, 79));
  (lit "darkturquoise", (0, 206, 209)); (lit "darkviolet", (148, 0, 211));
  (lit "deeppink", (255, 20, 147)); (lit "deepskyblue", (0, 191, 255));
  (lit "dimgray", (105, 105, 105)); (lit "dimgrey", (105, 105, 105));
  (lit "dodgerblue", (30, 144, 255)); (lit "firebrick", (178, 34, 34));
  (lit "floralwhite", (255, 250, 240)); (lit "forestgreen", (34, 139, 34));
  (lit "magenta", (255, 0, 255)); (lit "fuchsia", (255, 0, 255));
  (lit "gainsboro", (220, 220, 220)); (lit "ghostwhite", (248, 248, 255));
  (lit "gold", (255, 215, 0)); (lit "goldenrod", (218, 165, 32));
  (lit "grey", (128, 128, 128)); (lit "gray", (128, 128, 128));
  (lit "green", (0, 128, 0)); (lit "greenyellow", (173, 255, 47));
  (lit "honeydew", (240, 255, 240)); (lit "hotpink", (255, 105, 180));
  (lit "indianred", (205, 92, 92)); (lit "indigo", (75, 0, 130));
  (lit "ivory", (255, 255, 240)); (lit "khaki", (240, 230, 140));
  (lit "lavender", (230, 230, 250)); (lit "lavenderblush", (255, 240, 245));
  (lit "lawngreen", (124, 252, 0)); (lit "lemonchiffon", (255, 250, 205));
  (lit "lightblue", (173, 216, 230)); (lit "lightcoral", (240, 128, 128));
  (lit "lightcyan", (224, 255, 255)); (lit "lightgoldenrodyellow", (250, 250, 210));
  (lit "lightgray", (211, 211, 211)); (lit "lightgreen", (144, 238, 144));
  (lit "lightgrey", (211, 211, 211)); (lit "lightpink", (255, 182, 193));
  (lit "lightsalmon", (255, 160, 122)); (lit "lightseagreen", (32, 178, 170));
  (lit "lightskyblue", (135, 206, 250)); (lit "lightslategray", (119, 136, 153));
  (lit "lightslategrey", (119, 136, 153)); (lit "lightsteelblue", (176, 196, 222));
  (lit "lightyellow", (255, 255, 224)); (lit "lime", (0, 255, 0));
  (lit "limegreen", (50, 205, 50)); (lit "linen", (250, 240, 230));
  (lit "maroon", (128, 0, 0)); (lit "mediumaquamarine", (102, 205, 170));
  (lit "mediumblue", (0, 0, 205)); (lit "mediumorchid", (186, 85, 211));
  (lit "mediumpurple", (147, 112, 219)); (lit "mediumseagreen", (60, 179, 113));
  (lit "mediumslateblue", (123, 104, 238)); (lit "mediumspringgreen", (0, 250, 154));
  (lit "mediumturquoise", (72, 209, 204)); (lit "mediumvioletred", (199, 21, 133));
  (lit "midnightblue", (25, 25, 112)); (lit "mintcream", (245, 255, 250));
  (lit "mistyrose", (255, 228, 225)); (lit "moccasin", (255, 228, 181));
  (lit "navajowhite", (255, 222, 173)); (lit "navy", (0, 0, 128));
  (lit "oldlace", (253, 245, 230)); (lit "olive", (128, 128, 0));
  (lit "olivedrab", (107, 142, 35)); (lit "orange", (255, 165, 0));
  (lit "orangered", (255, 69, 0)); (lit "orchid", (218, 112, 214));
  (lit "palegoldenrod", (238, 232, 170)); (lit "palegreen", (152, 251, 152));
  (lit "paleturquoise", (175, 238, 238)); (lit "palevioletred", (219, 112, 147));
  (lit "papayawhip", (255, 239, 213)); (lit "peachpuff", (255, 218, 185));
  (lit "peru", (205, 133, 63)); (lit "pink", (255, 192, 203));
  (lit "plum", (221, 160, 221)); (lit "powderblue", (176, 224, 230));
  (lit "purple", (128, 0, 128)); (lit "rebeccapurple", (102, 51, 153));
  (lit "red", (255, 0, 0)); (lit "rosybrown", (188, 143, 143));
  (lit "royalblue", (65, 105, 225)); (lit "saddlebrown", (139, 69, 19));
  (lit "salmon", (250, 128, 114)); (lit "sandybrown", (244, 164, 96));
  (lit "seagreen", (46, 139, 87)); (lit "seashell", (255, 245, 238));
  (lit "sienna", (160, 82, 45)); (lit "silver", (192, 192, 192));
  (lit "skyblue", (135, 206, 235)); (lit "slateblue", (106, 90, 205));
  (lit "slategray", (112, 128, 144)); (lit "slategrey", (112, 128, 144));
  (lit "snow", (255, 250, 250)); (lit "springgreen", (0, 255, 127));
  (lit "steelblue", (70, 130, 180)); (lit "tan", (210, 180, 140));
  (lit "teal", (0, 128, 128)); (lit "thistle", (216, 191, 216));
  (lit "tomato", (255, 99, 71)); (lit "turquoise", (64, 224, 208));
  (lit "violet", (238, 130, 238)); (lit "wheat", (245, 222, 179));
  (lit "white", (255, 255, 255)); (lit "whitesmoke", (245, 245, 245));
  (lit "yellow", (255, 255, 0)); (lit "yellowgreen", (154, 205, 50))].

(** [dvipsnames_color]. (src/parser/tables.rs:199-271) *)
Definition dvipsnames_color (s : str) : option rgb := assoc_str s dvipsnames_color_table.

(** [str::to_lowercase] as far as it can produce a lowercase ASCII name: the
    characters with such a lowercase are A-Z and U+212A (KELVIN SIGN); every
    other character keeps a non-ASCII image, so no table entry can match.
    Simplified: other characters are left unchanged. (src/parser/tables.rs:281) *)
Definition lower_char (c : char) : char :=
  if (65 <=? c) && (c <=? 90) then c + 32 else if c =? 8490 then 107 else c.

(** [primitive_color]. (src/parser/tables.rs:277-428) *)
Definition primitive_color (s : str) : option rgb :=
  if 20 <? blen s then None else assoc_str (map lower_char s) primitive_color_table.

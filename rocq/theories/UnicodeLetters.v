(** Two tables of Unicode 14.0, made from UnicodeData.txt and not from the repository's tables: specification vocabulary
    for C100. *)
From Verif Require Import Prelude.
Local Open Scope N_scope.

(** The characters beyond ASCII whose canonical decomposition (NFD) starts with an ASCII letter: the character, that
    letter, and the marks which follow it. *)
Definition decompositions : list (N * N * list N) := [
  (192, 65, [768]); (193, 65, [769]); (194, 65, [770]); (195, 65, [771]); (196, 65, [776]); (197, 65, [778]);
  (199, 67, [807]); (200, 69, [768]); (201, 69, [769]); (202, 69, [770]); (203, 69, [776]); (204, 73, [768]);
  (205, 73, [769]); (206, 73, [770]); (207, 73, [776]); (209, 78, [771]); (210, 79, [768]); (211, 79, [769]);
  (212, 79, [770]); (213, 79, [771]); (214, 79, [776]); (217, 85, [768]); (218, 85, [769]); (219, 85, [770]);
  (220, 85, [776]); (221, 89, [769]); (224, 97, [768]); (225, 97, [769]); (226, 97, [770]); (227, 97, [771]);
  (228, 97, [776]); (229, 97, [778]); (231, 99, [807]); (232, 101, [768]); (233, 101, [769]); (234, 101, [770]);
  (235, 101, [776]); (236, 105, [768]); (237, 105, [769]); (238, 105, [770]); (239, 105, [776]); (241, 110, [771]);
  (242, 111, [768]); (243, 111, [769]); (244, 111, [770]); (245, 111, [771]); (246, 111, [776]); (249, 117, [768]);
  (250, 117, [769]); (251, 117, [770]); (252, 117, [776]); (253, 121, [769]); (255, 121, [776]); (256, 65, [772]);
  (257, 97, [772]); (258, 65, [774]); (259, 97, [774]); (260, 65, [808]); (261, 97, [808]); (262, 67, [769]);
  (263, 99, [769]); (264, 67, [770]); (265, 99, [770]); (266, 67, [775]); (267, 99, [775]); (268, 67, [780]);
  (269, 99, [780]); (270, 68, [780]); (271, 100, [780]); (274, 69, [772]); (275, 101, [772]); (276, 69, [774]);
  (277, 101, [774]); (278, 69, [775]); (279, 101, [775]); (280, 69, [808]); (281, 101, [808]); (282, 69, [780]);
  (283, 101, [780]); (284, 71, [770]); (285, 103, [770]); (286, 71, [774]); (287, 103, [774]); (288, 71, [775]);
  (289, 103, [775]); (290, 71, [807]); (291, 103, [807]); (292, 72, [770]); (293, 104, [770]); (296, 73, [771]);
  (297, 105, [771]); (298, 73, [772]); (299, 105, [772]); (300, 73, [774]); (301, 105, [774]); (302, 73, [808]);
  (303, 105, [808]); (304, 73, [775]); (308, 74, [770]); (309, 106, [770]); (310, 75, [807]); (311, 107, [807]);
  (313, 76, [769]); (314, 108, [769]); (315, 76, [807]); (316, 108, [807]); (317, 76, [780]); (318, 108, [780]);
  (323, 78, [769]); (324, 110, [769]); (325, 78, [807]); (326, 110, [807]); (327, 78, [780]); (328, 110, [780]);
  (332, 79, [772]); (333, 111, [772]); (334, 79, [774]); (335, 111, [774]); (336, 79, [779]); (337, 111, [779]);
  (340, 82, [769]); (341, 114, [769]); (342, 82, [807]); (343, 114, [807]); (344, 82, [780]); (345, 114, [780]);
  (346, 83, [769]); (347, 115, [769]); (348, 83, [770]); (349, 115, [770]); (350, 83, [807]); (351, 115, [807]);
  (352, 83, [780]); (353, 115, [780]); (354, 84, [807]); (355, 116, [807]); (356, 84, [780]); (357, 116, [780]);
  (360, 85, [771]); (361, 117, [771]); (362, 85, [772]); (363, 117, [772]); (364, 85, [774]); (365, 117, [774]);
  (366, 85, [778]); (367, 117, [778]); (368, 85, [779]); (369, 117, [779]); (370, 85, [808]); (371, 117, [808]);
  (372, 87, [770]); (373, 119, [770]); (374, 89, [770]); (375, 121, [770]); (376, 89, [776]); (377, 90, [769]);
  (378, 122, [769]); (379, 90, [775]); (380, 122, [775]); (381, 90, [780]); (382, 122, [780]); (416, 79, [795]);
  (417, 111, [795]); (431, 85, [795]); (432, 117, [795]); (461, 65, [780]); (462, 97, [780]); (463, 73, [780]);
  (464, 105, [780]); (465, 79, [780]); (466, 111, [780]); (467, 85, [780]); (468, 117, [780]); (469, 85, [776; 772]);
  (470, 117, [776; 772]); (471, 85, [776; 769]); (472, 117, [776; 769]); (473, 85, [776; 780]);
  (474, 117, [776; 780]); (475, 85, [776; 768]); (476, 117, [776; 768]); (478, 65, [776; 772]);
  (479, 97, [776; 772]); (480, 65, [775; 772]); (481, 97, [775; 772]); (486, 71, [780]); (487, 103, [780]);
  (488, 75, [780]); (489, 107, [780]); (490, 79, [808]); (491, 111, [808]); (492, 79, [808; 772]);
  (493, 111, [808; 772]); (496, 106, [780]); (500, 71, [769]); (501, 103, [769]); (504, 78, [768]);
  (505, 110, [768]); (506, 65, [778; 769]); (507, 97, [778; 769]); (512, 65, [783]); (513, 97, [783]);
  (514, 65, [785]); (515, 97, [785]); (516, 69, [783]); (517, 101, [783]); (518, 69, [785]); (519, 101, [785]);
  (520, 73, [783]); (521, 105, [783]); (522, 73, [785]); (523, 105, [785]); (524, 79, [783]); (525, 111, [783]);
  (526, 79, [785]); (527, 111, [785]); (528, 82, [783]); (529, 114, [783]); (530, 82, [785]); (531, 114, [785]);
  (532, 85, [783]); (533, 117, [783]); (534, 85, [785]); (535, 117, [785]); (536, 83, [806]); (537, 115, [806]);
  (538, 84, [806]); (539, 116, [806]); (542, 72, [780]); (543, 104, [780]); (550, 65, [775]); (551, 97, [775]);
  (552, 69, [807]); (553, 101, [807]); (554, 79, [776; 772]); (555, 111, [776; 772]); (556, 79, [771; 772]);
  (557, 111, [771; 772]); (558, 79, [775]); (559, 111, [775]); (560, 79, [775; 772]); (561, 111, [775; 772]);
  (562, 89, [772]); (563, 121, [772]); (7680, 65, [805]); (7681, 97, [805]); (7682, 66, [775]); (7683, 98, [775]);
  (7684, 66, [803]); (7685, 98, [803]); (7686, 66, [817]); (7687, 98, [817]); (7688, 67, [807; 769]);
  (7689, 99, [807; 769]); (7690, 68, [775]); (7691, 100, [775]); (7692, 68, [803]); (7693, 100, [803]);
  (7694, 68, [817]); (7695, 100, [817]); (7696, 68, [807]); (7697, 100, [807]); (7698, 68, [813]);
  (7699, 100, [813]); (7700, 69, [772; 768]); (7701, 101, [772; 768]); (7702, 69, [772; 769]);
  (7703, 101, [772; 769]); (7704, 69, [813]); (7705, 101, [813]); (7706, 69, [816]); (7707, 101, [816]);
  (7708, 69, [807; 774]); (7709, 101, [807; 774]); (7710, 70, [775]); (7711, 102, [775]); (7712, 71, [772]);
  (7713, 103, [772]); (7714, 72, [775]); (7715, 104, [775]); (7716, 72, [803]); (7717, 104, [803]);
  (7718, 72, [776]); (7719, 104, [776]); (7720, 72, [807]); (7721, 104, [807]); (7722, 72, [814]);
  (7723, 104, [814]); (7724, 73, [816]); (7725, 105, [816]); (7726, 73, [776; 769]); (7727, 105, [776; 769]);
  (7728, 75, [769]); (7729, 107, [769]); (7730, 75, [803]); (7731, 107, [803]); (7732, 75, [817]);
  (7733, 107, [817]); (7734, 76, [803]); (7735, 108, [803]); (7736, 76, [803; 772]); (7737, 108, [803; 772]);
  (7738, 76, [817]); (7739, 108, [817]); (7740, 76, [813]); (7741, 108, [813]); (7742, 77, [769]);
  (7743, 109, [769]); (7744, 77, [775]); (7745, 109, [775]); (7746, 77, [803]); (7747, 109, [803]);
  (7748, 78, [775]); (7749, 110, [775]); (7750, 78, [803]); (7751, 110, [803]); (7752, 78, [817]);
  (7753, 110, [817]); (7754, 78, [813]); (7755, 110, [813]); (7756, 79, [771; 769]); (7757, 111, [771; 769]);
  (7758, 79, [771; 776]); (7759, 111, [771; 776]); (7760, 79, [772; 768]); (7761, 111, [772; 768]);
  (7762, 79, [772; 769]); (7763, 111, [772; 769]); (7764, 80, [769]); (7765, 112, [769]); (7766, 80, [775]);
  (7767, 112, [775]); (7768, 82, [775]); (7769, 114, [775]); (7770, 82, [803]); (7771, 114, [803]);
  (7772, 82, [803; 772]); (7773, 114, [803; 772]); (7774, 82, [817]); (7775, 114, [817]); (7776, 83, [775]);
  (7777, 115, [775]); (7778, 83, [803]); (7779, 115, [803]); (7780, 83, [769; 775]); (7781, 115, [769; 775]);
  (7782, 83, [780; 775]); (7783, 115, [780; 775]); (7784, 83, [803; 775]); (7785, 115, [803; 775]);
  (7786, 84, [775]); (7787, 116, [775]); (7788, 84, [803]); (7789, 116, [803]); (7790, 84, [817]);
  (7791, 116, [817]); (7792, 84, [813]); (7793, 116, [813]); (7794, 85, [804]); (7795, 117, [804]);
  (7796, 85, [816]); (7797, 117, [816]); (7798, 85, [813]); (7799, 117, [813]); (7800, 85, [771; 769]);
  (7801, 117, [771; 769]); (7802, 85, [772; 776]); (7803, 117, [772; 776]); (7804, 86, [771]); (7805, 118, [771]);
  (7806, 86, [803]); (7807, 118, [803]); (7808, 87, [768]); (7809, 119, [768]); (7810, 87, [769]);
  (7811, 119, [769]); (7812, 87, [776]); (7813, 119, [776]); (7814, 87, [775]); (7815, 119, [775]);
  (7816, 87, [803]); (7817, 119, [803]); (7818, 88, [775]); (7819, 120, [775]); (7820, 88, [776]);
  (7821, 120, [776]); (7822, 89, [775]); (7823, 121, [775]); (7824, 90, [770]); (7825, 122, [770]);
  (7826, 90, [803]); (7827, 122, [803]); (7828, 90, [817]); (7829, 122, [817]); (7830, 104, [817]);
  (7831, 116, [776]); (7832, 119, [778]); (7833, 121, [778]); (7840, 65, [803]); (7841, 97, [803]);
  (7842, 65, [777]); (7843, 97, [777]); (7844, 65, [770; 769]); (7845, 97, [770; 769]); (7846, 65, [770; 768]);
  (7847, 97, [770; 768]); (7848, 65, [770; 777]); (7849, 97, [770; 777]); (7850, 65, [770; 771]);
  (7851, 97, [770; 771]); (7852, 65, [803; 770]); (7853, 97, [803; 770]); (7854, 65, [774; 769]);
  (7855, 97, [774; 769]); (7856, 65, [774; 768]); (7857, 97, [774; 768]); (7858, 65, [774; 777]);
  (7859, 97, [774; 777]); (7860, 65, [774; 771]); (7861, 97, [774; 771]); (7862, 65, [803; 774]);
  (7863, 97, [803; 774]); (7864, 69, [803]); (7865, 101, [803]); (7866, 69, [777]); (7867, 101, [777]);
  (7868, 69, [771]); (7869, 101, [771]); (7870, 69, [770; 769]); (7871, 101, [770; 769]); (7872, 69, [770; 768]);
  (7873, 101, [770; 768]); (7874, 69, [770; 777]); (7875, 101, [770; 777]); (7876, 69, [770; 771]);
  (7877, 101, [770; 771]); (7878, 69, [803; 770]); (7879, 101, [803; 770]); (7880, 73, [777]); (7881, 105, [777]);
  (7882, 73, [803]); (7883, 105, [803]); (7884, 79, [803]); (7885, 111, [803]); (7886, 79, [777]);
  (7887, 111, [777]); (7888, 79, [770; 769]); (7889, 111, [770; 769]); (7890, 79, [770; 768]);
  (7891, 111, [770; 768]); (7892, 79, [770; 777]); (7893, 111, [770; 777]); (7894, 79, [770; 771]);
  (7895, 111, [770; 771]); (7896, 79, [803; 770]); (7897, 111, [803; 770]); (7898, 79, [795; 769]);
  (7899, 111, [795; 769]); (7900, 79, [795; 768]); (7901, 111, [795; 768]); (7902, 79, [795; 777]);
  (7903, 111, [795; 777]); (7904, 79, [795; 771]); (7905, 111, [795; 771]); (7906, 79, [795; 803]);
  (7907, 111, [795; 803]); (7908, 85, [803]); (7909, 117, [803]); (7910, 85, [777]); (7911, 117, [777]);
  (7912, 85, [795; 769]); (7913, 117, [795; 769]); (7914, 85, [795; 768]); (7915, 117, [795; 768]);
  (7916, 85, [795; 777]); (7917, 117, [795; 777]); (7918, 85, [795; 771]); (7919, 117, [795; 771]);
  (7920, 85, [795; 803]); (7921, 117, [795; 803]); (7922, 89, [768]); (7923, 121, [768]); (7924, 89, [803]);
  (7925, 121, [803]); (7926, 89, [777]); (7927, 121, [777]); (7928, 89, [771]); (7929, 121, [771]); (8490, 75, []);
  (8491, 65, [778])]%N.

(** The characters beyond ASCII which are named after one letter, for example LATIN SMALL LETTER O WITH STROKE, LATIN
    LETTER SMALL CAPITAL G (a capital) or COMBINING LATIN SMALL LETTER A, and the letter as an ASCII character. What follows
    WITH in the name is ignored, and ALPHA counts as A. *)
Definition letter_names : list (N * N) := [
  (192, 65); (193, 65); (194, 65); (195, 65); (196, 65); (197, 65); (199, 67); (200, 69); (201, 69); (202, 69);
  (203, 69); (204, 73); (205, 73); (206, 73); (207, 73); (209, 78); (210, 79); (211, 79); (212, 79); (213, 79);
  (214, 79); (216, 79); (217, 85); (218, 85); (219, 85); (220, 85); (221, 89); (223, 115); (224, 97); (225, 97);
  (226, 97); (227, 97); (228, 97); (229, 97); (231, 99); (232, 101); (233, 101); (234, 101); (235, 101); (236, 105);
  (237, 105); (238, 105); (239, 105); (241, 110); (242, 111); (243, 111); (244, 111); (245, 111); (246, 111);
  (248, 111); (249, 117); (250, 117); (251, 117); (252, 117); (253, 121); (255, 121); (256, 65); (257, 97);
  (258, 65); (259, 97); (260, 65); (261, 97); (262, 67); (263, 99); (264, 67); (265, 99); (266, 67); (267, 99);
  (268, 67); (269, 99); (270, 68); (271, 100); (272, 68); (273, 100); (274, 69); (275, 101); (276, 69); (277, 101);
  (278, 69); (279, 101); (280, 69); (281, 101); (282, 69); (283, 101); (284, 71); (285, 103); (286, 71); (287, 103);
  (288, 71); (289, 103); (290, 71); (291, 103); (292, 72); (293, 104); (294, 72); (295, 104); (296, 73); (297, 105);
  (298, 73); (299, 105); (300, 73); (301, 105); (302, 73); (303, 105); (304, 73); (305, 105); (308, 74); (309, 106);
  (310, 75); (311, 107); (313, 76); (314, 108); (315, 76); (316, 108); (317, 76); (318, 108); (319, 76); (320, 108);
  (321, 76); (322, 108); (323, 78); (324, 110); (325, 78); (326, 110); (327, 78); (328, 110); (329, 110); (332, 79);
  (333, 111); (334, 79); (335, 111); (336, 79); (337, 111); (340, 82); (341, 114); (342, 82); (343, 114); (344, 82);
  (345, 114); (346, 83); (347, 115); (348, 83); (349, 115); (350, 83); (351, 115); (352, 83); (353, 115); (354, 84);
  (355, 116); (356, 84); (357, 116); (358, 84); (359, 116); (360, 85); (361, 117); (362, 85); (363, 117); (364, 85);
  (365, 117); (366, 85); (367, 117); (368, 85); (369, 117); (370, 85); (371, 117); (372, 87); (373, 119); (374, 89);
  (375, 121); (376, 89); (377, 90); (378, 122); (379, 90); (380, 122); (381, 90); (382, 122); (383, 115); (384, 98);
  (385, 66); (386, 66); (387, 98); (390, 79); (391, 67); (392, 99); (393, 68); (394, 68); (395, 68); (396, 100);
  (398, 69); (400, 69); (401, 70); (402, 102); (403, 71); (407, 73); (408, 75); (409, 107); (410, 108); (412, 77);
  (413, 78); (414, 110); (415, 79); (416, 79); (417, 111); (420, 80); (421, 112); (427, 116); (428, 84); (429, 116);
  (430, 84); (431, 85); (432, 117); (434, 86); (435, 89); (436, 121); (437, 90); (438, 122); (453, 68); (456, 76);
  (459, 78); (461, 65); (462, 97); (463, 73); (464, 105); (465, 79); (466, 111); (467, 85); (468, 117); (469, 85);
  (470, 117); (471, 85); (472, 117); (473, 85); (474, 117); (475, 85); (476, 117); (477, 101); (478, 65); (479, 97);
  (480, 65); (481, 97); (484, 71); (485, 103); (486, 71); (487, 103); (488, 75); (489, 107); (490, 79); (491, 111);
  (492, 79); (493, 111); (496, 106); (498, 68); (500, 71); (501, 103); (504, 78); (505, 110); (506, 65); (507, 97);
  (510, 79); (511, 111); (512, 65); (513, 97); (514, 65); (515, 97); (516, 69); (517, 101); (518, 69); (519, 101);
  (520, 73); (521, 105); (522, 73); (523, 105); (524, 79); (525, 111); (526, 79); (527, 111); (528, 82); (529, 114);
  (530, 82); (531, 114); (532, 85); (533, 117); (534, 85); (535, 117); (536, 83); (537, 115); (538, 84); (539, 116);
  (542, 72); (543, 104); (544, 78); (545, 100); (548, 90); (549, 122); (550, 65); (551, 97); (552, 69); (553, 101);
  (554, 79); (555, 111); (556, 79); (557, 111); (558, 79); (559, 111); (560, 79); (561, 111); (562, 89); (563, 121);
  (564, 108); (565, 110); (566, 116); (567, 106); (570, 65); (571, 67); (572, 99); (573, 76); (574, 84); (575, 115);
  (576, 122); (579, 66); (580, 85); (581, 86); (582, 69); (583, 101); (584, 74); (585, 106); (586, 81); (587, 113);
  (588, 82); (589, 114); (590, 89); (591, 121); (592, 97); (593, 97); (594, 97); (595, 98); (596, 111); (597, 99);
  (598, 100); (599, 100); (600, 101); (603, 101); (604, 101); (605, 101); (606, 101); (607, 106); (608, 103);
  (609, 103); (610, 71); (613, 104); (614, 104); (616, 105); (618, 73); (619, 108); (620, 108); (621, 108);
  (623, 109); (624, 109); (625, 109); (626, 110); (627, 110); (628, 78); (629, 111); (633, 114); (634, 114);
  (635, 114); (636, 114); (637, 114); (638, 114); (639, 114); (640, 82); (641, 82); (642, 115); (644, 106);
  (647, 116); (648, 116); (649, 117); (651, 118); (652, 118); (653, 119); (654, 121); (655, 89); (656, 122);
  (657, 122); (663, 99); (665, 66); (666, 101); (667, 71); (668, 72); (669, 106); (670, 107); (671, 76); (672, 113);
  (686, 104); (687, 104); (867, 97); (868, 101); (869, 105); (870, 111); (871, 117); (872, 99); (873, 100);
  (874, 104); (875, 109); (876, 114); (877, 116); (878, 118); (879, 120); (6847, 119); (6848, 119); (6860, 103);
  (6861, 114); (6862, 116); (7424, 65); (7427, 66); (7428, 67); (7429, 68); (7431, 69); (7432, 101); (7433, 105);
  (7434, 74); (7435, 75); (7436, 76); (7437, 77); (7438, 78); (7439, 79); (7440, 79); (7441, 111); (7442, 111);
  (7443, 111); (7446, 111); (7447, 111); (7448, 80); (7449, 82); (7450, 82); (7451, 84); (7452, 85); (7453, 117);
  (7454, 117); (7455, 109); (7456, 86); (7457, 87); (7458, 90); (7522, 105); (7523, 114); (7524, 117); (7525, 118);
  (7532, 98); (7533, 100); (7534, 102); (7535, 109); (7536, 110); (7537, 112); (7538, 114); (7539, 114); (7540, 115);
  (7541, 116); (7542, 122); (7543, 103); (7545, 103); (7549, 112); (7552, 98); (7553, 100); (7554, 102); (7555, 103);
  (7556, 107); (7557, 108); (7558, 109); (7559, 110); (7560, 112); (7561, 114); (7562, 115); (7564, 118);
  (7565, 120); (7566, 122); (7567, 97); (7568, 97); (7569, 100); (7570, 101); (7571, 101); (7572, 101); (7574, 105);
  (7575, 111); (7577, 117); (7626, 114); (7635, 97); (7639, 99); (7640, 100); (7642, 103); (7643, 71); (7644, 107);
  (7645, 108); (7646, 76); (7647, 77); (7648, 110); (7649, 78); (7650, 82); (7651, 114); (7652, 115); (7653, 115);
  (7654, 122); (7655, 97); (7656, 98); (7659, 102); (7660, 108); (7661, 111); (7662, 112); (7664, 117); (7665, 119);
  (7666, 97); (7667, 111); (7668, 117); (7680, 65); (7681, 97); (7682, 66); (7683, 98); (7684, 66); (7685, 98);
  (7686, 66); (7687, 98); (7688, 67); (7689, 99); (7690, 68); (7691, 100); (7692, 68); (7693, 100); (7694, 68);
  (7695, 100); (7696, 68); (7697, 100); (7698, 68); (7699, 100); (7700, 69); (7701, 101); (7702, 69); (7703, 101);
  (7704, 69); (7705, 101); (7706, 69); (7707, 101); (7708, 69); (7709, 101); (7710, 70); (7711, 102); (7712, 71);
  (7713, 103); (7714, 72); (7715, 104); (7716, 72); (7717, 104); (7718, 72); (7719, 104); (7720, 72); (7721, 104);
  (7722, 72); (7723, 104); (7724, 73); (7725, 105); (7726, 73); (7727, 105); (7728, 75); (7729, 107); (7730, 75);
  (7731, 107); (7732, 75); (7733, 107); (7734, 76); (7735, 108); (7736, 76); (7737, 108); (7738, 76); (7739, 108);
  (7740, 76); (7741, 108); (7742, 77); (7743, 109); (7744, 77); (7745, 109); (7746, 77); (7747, 109); (7748, 78);
  (7749, 110); (7750, 78); (7751, 110); (7752, 78); (7753, 110); (7754, 78); (7755, 110); (7756, 79); (7757, 111);
  (7758, 79); (7759, 111); (7760, 79); (7761, 111); (7762, 79); (7763, 111); (7764, 80); (7765, 112); (7766, 80);
  (7767, 112); (7768, 82); (7769, 114); (7770, 82); (7771, 114); (7772, 82); (7773, 114); (7774, 82); (7775, 114);
  (7776, 83); (7777, 115); (7778, 83); (7779, 115); (7780, 83); (7781, 115); (7782, 83); (7783, 115); (7784, 83);
  (7785, 115); (7786, 84); (7787, 116); (7788, 84); (7789, 116); (7790, 84); (7791, 116); (7792, 84); (7793, 116);
  (7794, 85); (7795, 117); (7796, 85); (7797, 117); (7798, 85); (7799, 117); (7800, 85); (7801, 117); (7802, 85);
  (7803, 117); (7804, 86); (7805, 118); (7806, 86); (7807, 118); (7808, 87); (7809, 119); (7810, 87); (7811, 119);
  (7812, 87); (7813, 119); (7814, 87); (7815, 119); (7816, 87); (7817, 119); (7818, 88); (7819, 120); (7820, 88);
  (7821, 120); (7822, 89); (7823, 121); (7824, 90); (7825, 122); (7826, 90); (7827, 122); (7828, 90); (7829, 122);
  (7830, 104); (7831, 116); (7832, 119); (7833, 121); (7834, 97); (7835, 115); (7836, 115); (7837, 115); (7838, 83);
  (7840, 65); (7841, 97); (7842, 65); (7843, 97); (7844, 65); (7845, 97); (7846, 65); (7847, 97); (7848, 65);
  (7849, 97); (7850, 65); (7851, 97); (7852, 65); (7853, 97); (7854, 65); (7855, 97); (7856, 65); (7857, 97);
  (7858, 65); (7859, 97); (7860, 65); (7861, 97); (7862, 65); (7863, 97); (7864, 69); (7865, 101); (7866, 69);
  (7867, 101); (7868, 69); (7869, 101); (7870, 69); (7871, 101); (7872, 69); (7873, 101); (7874, 69); (7875, 101);
  (7876, 69); (7877, 101); (7878, 69); (7879, 101); (7880, 73); (7881, 105); (7882, 73); (7883, 105); (7884, 79);
  (7885, 111); (7886, 79); (7887, 111); (7888, 79); (7889, 111); (7890, 79); (7891, 111); (7892, 79); (7893, 111);
  (7894, 79); (7895, 111); (7896, 79); (7897, 111); (7898, 79); (7899, 111); (7900, 79); (7901, 111); (7902, 79);
  (7903, 111); (7904, 79); (7905, 111); (7906, 79); (7907, 111); (7908, 85); (7909, 117); (7910, 85); (7911, 117);
  (7912, 85); (7913, 117); (7914, 85); (7915, 117); (7916, 85); (7917, 117); (7918, 85); (7919, 117); (7920, 85);
  (7921, 117); (7922, 89); (7923, 121); (7924, 89); (7925, 121); (7926, 89); (7927, 121); (7928, 89); (7929, 121);
  (7932, 86); (7933, 118); (7934, 89); (7935, 121); (8305, 105); (8319, 110); (8336, 97); (8337, 101); (8338, 111);
  (8339, 120); (8341, 104); (8342, 107); (8343, 108); (8344, 109); (8345, 110); (8346, 112); (8347, 115);
  (8348, 116); (8580, 99); (11360, 76); (11361, 108); (11362, 76); (11363, 80); (11364, 82); (11365, 97);
  (11366, 116); (11367, 72); (11368, 104); (11369, 75); (11370, 107); (11371, 90); (11372, 122); (11373, 65);
  (11374, 77); (11375, 65); (11376, 65); (11377, 118); (11378, 87); (11379, 119); (11380, 118); (11381, 72);
  (11382, 104); (11384, 101); (11385, 114); (11386, 111); (11387, 69); (11388, 106); (11390, 83); (11391, 90);
  (42800, 70); (42801, 83); (42814, 67); (42815, 99); (42816, 75); (42817, 107); (42818, 75); (42819, 107);
  (42820, 75); (42821, 107); (42822, 76); (42823, 108); (42824, 76); (42825, 108); (42826, 79); (42827, 111);
  (42828, 79); (42829, 111); (42832, 80); (42833, 112); (42834, 80); (42835, 112); (42836, 80); (42837, 112);
  (42838, 81); (42839, 113); (42840, 81); (42841, 113); (42842, 82); (42843, 114); (42846, 86); (42847, 118);
  (42850, 90); (42851, 122); (42873, 68); (42874, 100); (42875, 70); (42876, 102); (42877, 71); (42878, 71);
  (42879, 103); (42880, 76); (42881, 108); (42882, 82); (42883, 114); (42884, 83); (42885, 115); (42886, 84);
  (42887, 116); (42893, 72); (42894, 108); (42896, 78); (42897, 110); (42898, 67); (42899, 99); (42900, 99);
  (42901, 104); (42902, 66); (42903, 98); (42904, 70); (42905, 102); (42912, 71); (42913, 103); (42914, 75);
  (42915, 107); (42916, 78); (42917, 110); (42918, 82); (42919, 114); (42920, 83); (42921, 115); (42922, 72);
  (42923, 69); (42924, 71); (42925, 76); (42926, 73); (42927, 81); (42928, 75); (42929, 84); (42930, 74);
  (42936, 85); (42937, 117); (42938, 65); (42939, 97); (42940, 73); (42941, 105); (42942, 85); (42943, 117);
  (42944, 79); (42945, 111); (42946, 87); (42947, 119); (42948, 67); (42949, 83); (42950, 90); (42951, 68);
  (42952, 100); (42953, 83); (42954, 115); (42960, 71); (42961, 103); (42966, 83); (42967, 115); (42968, 83);
  (42969, 115); (42997, 72); (42998, 104); (43002, 77); (43824, 97); (43825, 97); (43826, 101); (43827, 101);
  (43828, 101); (43829, 102); (43830, 103); (43831, 108); (43832, 108); (43833, 108); (43834, 109); (43835, 110);
  (43837, 111); (43838, 111); (43839, 111); (43843, 111); (43844, 111); (43845, 114); (43846, 82); (43847, 114);
  (43848, 114); (43849, 114); (43850, 114); (43851, 114); (43852, 114); (43854, 117); (43855, 117); (43858, 117);
  (43862, 120); (43863, 120); (43864, 120); (43865, 120); (43866, 121); (43873, 101); (43876, 97); (43880, 114);
  (122625, 103); (122626, 71); (122627, 107); (122628, 76); (122630, 121); (122632, 114); (122633, 116);
  (122637, 116); (122639, 99); (122640, 75); (122641, 108); (122643, 108); (122645, 114); (122646, 114);
  (122650, 105); (122651, 111); (122653, 99); (122654, 115)].

Definition small (x : N) : bool := (97 <=? x) && (x <=? 122).

(** The entries which the code handles: one mark on a small letter or on a capital of Latin-1, two more capitals
    (U+0130 and U+0178), and the letters with two marks among the Vietnamese ones (U+1EA0 to U+1EF1). *)
Definition handled (c x : N) (marks : list N) : Prop :=
  match marks with
  | [_] => small x = true \/ c < 256 \/ c = 304 \/ c = 376
  | _ => 7840 <= c <= 7921
  end.

(** [decomposed which c c']: [c'] is [c] with some of the characters which [which] allows replaced by their
    decompositions. *)
Inductive decomposed (which : N -> N -> list N -> Prop) : list N -> list N -> Prop :=
| dc_end : decomposed which [] []
| dc_keep y c c' : decomposed which c c' -> decomposed which (y :: c) (y :: c')
| dc_split y x marks c c' : In (y, x, marks) decompositions -> which y x marks ->
    decomposed which c c' -> decomposed which (y :: c) (x :: marks ++ c').

Definition any_letter (c x : N) (marks : list N) : Prop := True.

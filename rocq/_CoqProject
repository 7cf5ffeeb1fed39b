-Q theories Verif
theories/Base.v
theories/BaseFacts.v
theories/Num.v
theories/NumFacts.v
theories/DurationModel.v
theories/DurationSpec.v
theories/DurationProofs.v
theories/PropsDuration.v
theories/Regex.v
theories/RegexFacts.v
theories/KeysModel.v
theories/UserModel.v
theories/KeysSpec.v
theories/KeysProofs.v
theories/UserProofs.v
theories/PropsKeys.v
theories/PropsUser.v
theories/IpModel.v
theories/IpProofs.v
theories/Serde.v
theories/PortsModel.v
theories/PortsProofs.v
theories/NumSpec.v
theories/IpSpec.v
theories/IpLang.v
theories/PortsSpec.v
theories/PropsPortText.v
theories/PropsPorts.v
theories/BytesModel.v
theories/BytesProofs.v
theories/PropsBytes.v
theories/CpuSetModel.v
theories/CpuSetProofs.v
theories/PropsCpuSet.v
theories/DeviceModel.v
theories/DeviceProofs.v
theories/PropsDevice.v
theories/NetModel.v
theories/NetProofs.v
theories/PropsNet.v
theories/PlatformModel.v
theories/PlatformSpec.v
theories/PlatformProofs.v
theories/PropsPlatform.v
theories/PathModel.v
theories/PathProofs.v
theories/VolumesModel.v
theories/VolumesProofs.v
theories/PropsVolumes.v
theories/ImageModel.v
theories/ImageSpec.v
theories/ImageLang.v
theories/ImageProofs.v
theories/PropsImage.v
theories/Coll.v
theories/CollFacts.v
theories/ValuesModel.v
theories/ValuesSpec.v
theories/ValuesProofs.v
theories/ValuesNumProofs.v
theories/ListMapProofs.v
theories/PropsValues.v
theories/TextModel.v
theories/PropsText.v
theories/BuildModel.v
theories/BuildProofs.v
theories/PropsBuild.v
theories/ValidateModel.v
theories/PropsValidate.v
theories/Codec.v
theories/CodecFacts.v
theories/EnumModel.v
theories/PropsEnum.v
theories/EqModel.v
theories/ScalarCodec.v
theories/ScalarGood.v
theories/CommonCodec.v
theories/CommonGood.v
theories/ServiceParts.v
theories/PartsGood.v
theories/MountCodec.v
theories/MountGood.v
theories/HealthModel.v
theories/OrderFacts.v
theories/HealthProofs.v
theories/PropsHealth.v
theories/ServiceCodec.v
theories/ServiceGood.v
theories/ComposeCodec.v
theories/ComposeGood.v
theories/ExactFacts.v
theories/ReadFacts.v
theories/NeatFacts.v
theories/ComposeProofs.v
theories/PropsCompose.v
theories/PropsSources.v
theories/EmptyModel.v
theories/EmptyProofs.v
theories/PropsEmpty.v
theories/ShortModel.v
theories/PropsShort.v
theories/Schema.v
theories/SchemaText.v
theories/ComposeSchema.v
theories/SchemaFacts.v
theories/SchemaLoads.v
theories/SchemaLeaves.v
theories/SchemaSpecial.v
theories/SchemaResource.v
theories/ComposeLoads.v
theories/PropsSchema.v
theories/ComposeView.v
theories/DocumentSpec.v
theories/DocumentFacts.v
theories/PropsDocument.v
theories/WrittenSpec.v
theories/PropsWritten.v
theories/DefaultModel.v
theories/NamesSpec.v
theories/PropsDefault.v
theories/OptionsModel.v
theories/MergeSpec.v
theories/MergeFacts.v
theories/PropsOptions.v
theories/HashModel.v
theories/HashSpec.v
theories/HashFacts.v
theories/PropsHash.v
theories/PropsResource.v
theories/ContextModel.v
theories/PropsContext.v
theories/ErrorSpec.v
theories/ErrorFacts.v
theories/PropsErrors.v
theories/PropsErrors2.v
theories/PanicSpec.v
theories/PanicFacts.v
theories/PanicLoads.v
theories/PropsPanic.v
theories/ChangeSpec.v
theories/ChangeFacts.v
theories/ChangeLoads.v
theories/PropsChange.v
theories/SpellSpec.v
theories/SpellFacts.v
theories/SpellLoads.v
theories/PropsSpell.v
theories/NodeModel.v
theories/NodeSpec.v
theories/NodeFacts.v
theories/NodeLoads.v
theories/PropsNode.v
theories/MacroModel.v
theories/MacroSpec.v
theories/PropsMacro.v
theories/FormsSpec.v
theories/FormsModel.v
theories/FormsSame.v
theories/FormsFacts.v
theories/FormsItems.v
theories/FormsLoads.v
theories/PropsForms.v
theories/PropsParts.v
theories/PropsApart.v
theories/ConvModel.v
theories/QuoteSpec.v
theories/PropsQuotes.v
theories/PropsConv.v
theories/PropsItemText.v
theories/ReloadFacts.v
theories/PropsReload.v
theories/ErrorText.v
theories/ErrorTextSpec.v
theories/ErrorTextFacts.v
theories/PropsErrorText.v
theories/PropsVariant.v
theories/PropsMac.v
theories/CompareModel.v
theories/PropsCompare.v
theories/EditModel.v
theories/PropsEdit.v
theories/KeepSpec.v
theories/KeepFacts.v
theories/KeepWhole.v
theories/KeepLoads.v
theories/PropsKeep.v
theories/SettleSpec.v
theories/SettleFacts.v
theories/SettleBack.v
theories/PropsSettle.v
theories/PropsSettleView.v
theories/DefinedSpec.v
theories/PropsDefined.v
theories/PropsMonotone.v
theories/PropsRemove.v
theories/PropsAdd.v
theories/AgreeSpec.v
theories/PropsAgree.v
theories/ConflictSpec.v
theories/PropsConflict.v
theories/ExpectSpec.v
theories/ExpectModel.v
theories/PropsExpect.v
theories/IntoModel.v
theories/PropsInto.v
